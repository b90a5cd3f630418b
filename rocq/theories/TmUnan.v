(* Commit requests follow a unanimous vote, also when another transaction manager asks for the commit (C13). *)
From Coq Require Import ZArith List Bool Lia Permutation.
From Verif Require Import CodesModel FanModel FanSpec FanProofs FanTrack TmModel TmSpec TmMicro TmFacts TmProv TmVotes TmFlow TmStable.
From Verif Require GroupModel GroupProofs.
Import ListNotations.
Local Open Scope Z_scope.

(* ------------------------------------------------------------ the branches of a transaction are different *)

Definition xid (b : branch) : Z * Z := (t_g (b_trid b), t_b (b_trid b)).
Definition nb (x : txn) : Prop := NoDup (map xid (x_branches x)).
Definition NB (s : tm) : Prop := forall g x, find_tx g s = Some x -> nb x.

Lemma same_xid_iff a b : same_xid a b = true <-> (t_g a, t_b a) = (t_g b, t_b b).
Proof.
  unfold same_xid. rewrite andb_true_iff, !Z.eqb_eq. split; [intros [-> ->]; auto|]. intros H. injection H. auto.
Qed.

Lemma at_branch_xids t rs l : map xid (at_branch t (involve rs) l) = map xid l \/
  (map xid (at_branch t (involve rs) l) = map xid l ++ [(t_g t, t_b t)] /\ ~ In (t_g t, t_b t) (map xid l)).
Proof.
  induction l as [|b l IH]; cbn [at_branch map app]; [right; split; [reflexivity|simpl; tauto]|].
  destruct (same_xid (b_trid b) t) eqn:E; [left; reflexivity|]. cbn [map]. destruct IH as [->|[-> N]]; [left; auto|right]. split; auto.
  intros [I|I]; [|auto]. apply same_xid_iff in I. unfold xid in I. congruence.
Qed.

Lemma nb_at t rs l : NoDup (map xid l) -> NoDup (map xid (at_branch t (involve rs) l)).
Proof. intros H. destruct (at_branch_xids t rs l) as [->|[-> N]]; auto using nodup_snoc. Qed.

Lemma nodup_filter {A B} (f : A -> B) p l : NoDup (map f l) -> NoDup (map f (filter p l)).
Proof.
  induction l as [|a l IH]; simpl; auto. inversion 1; subst. destruct (p a); simpl; auto. constructor; auto.
  intros I. apply H2. apply in_map_iff in I as (y&E&I). apply filter_In in I as [I _]. apply in_map_iff. eauto.
Qed.

Lemma nb_purge l : NoDup (map xid l) -> NoDup (map xid (purge l)).
Proof.
  intros H. unfold purge. destruct (GroupModel.partition_pure _ l) as [f b] eqn:E. apply GroupProofs.partition_pure_perm in E as [P _]. cbn [fst].
  eapply Permutation_NoDup; [apply Permutation_map; apply Permutation_sym; exact P|]. apply nodup_filter. auto.
Qed.

Lemma drop_xids t r l : map xid (drop_res t r l) = map xid l.
Proof. induction l as [|b l IH]; simpl; auto. destruct (same_xid (b_trid b) t); cbn [map]; [reflexivity|rewrite IH; auto]. Qed.
Lemma drops_xids vs : forall l, map xid (fold_left (fun bs v => drop_res (v_trid v) (v_rid v) bs) vs l) = map xid l.
Proof. induction vs as [|v vs IH]; intros l; simpl; auto. rewrite IH. apply drop_xids. Qed.

Lemma nb_voted d x : nb x -> nb (voted d x).
Proof. unfold nb, voted, purge_votes. cbn [x_branches set_branches]. intros H. apply nb_purge. rewrite drops_xids. exact H. Qed.

(* what is dropped is gone *)
Lemma drop_sub t r l u q : In (u, q) (targets (drop_res t r l)) -> In (u, q) (targets l).
Proof.
  induction l as [|b l IH]; simpl; auto. destruct (same_xid (b_trid b) t); simpl; rewrite !in_app_iff; intros [I|I]; auto.
  left. apply in_map_iff in I as (y&E&I). injection E as <- <-. cbn [b_res] in I. apply filter_In in I as [I _]. apply in_map_iff. eauto.
Qed.
Lemma drop_gone t r l u : NoDup (map xid l) -> same_xid u t = true -> ~ In (u, r) (targets (drop_res t r l)).
Proof.
  intros N E. induction l as [|b l IH]; [intros []|]. inversion N as [|y l' NI N']; subst. cbn [drop_res].
  destruct (same_xid (b_trid b) t) eqn:S; cbn [targets flat_map]; rewrite in_app_iff; intros [I|I].
  - apply in_map_iff in I as (y&EY&I). injection EY as _ ->. cbn [b_res] in I. apply filter_In in I as [_ I]. rewrite Z.eqb_refl in I. discriminate.
  - fold (targets l) in I. apply in_targets in I as (b'&B&EB&_). apply NI. apply in_map_iff. exists b'. split; auto. unfold xid. rewrite EB.
    apply same_xid_iff in E. apply same_xid_iff in S. congruence.
  - apply in_map_iff in I as (y&EY&I). injection EY as EU ->. subst u. congruence.
  - exact (IH N' I).
Qed.
Lemma drops_gone vs : forall l u r v, NoDup (map xid l) -> In v vs -> same_xid u (v_trid v) = true -> v_rid v = r ->
  ~ In (u, r) (targets (fold_left (fun bs v => drop_res (v_trid v) (v_rid v) bs) vs l)).
Proof.
  assert (SUB : forall ws l u r, In (u, r) (targets (fold_left (fun bs v => drop_res (v_trid v) (v_rid v) bs) ws l)) -> In (u, r) (targets l)).
  { induction ws as [|w ws IH]; intros l u r; simpl; auto. intros I. apply IH in I. eapply drop_sub; eauto. }
  induction vs as [|w vs IH]; intros l u r v N I E R; [destruct I|]. simpl. destruct I as [->|I].
  - intros X. apply SUB in X. subst r. eapply drop_gone; eauto.
  - eapply IH; eauto. rewrite drop_xids. exact N.
Qed.
Lemma voted_not_ro d x u r v : nb x -> In v (ro_of d) -> same_xid u (v_trid v) = true -> v_rid v = r -> ~ In (u, r) (targets (x_branches (voted d x))).
Proof.
  intros N I E R X. unfold voted, purge_votes in X. cbn [x_branches set_branches set_stage] in X. apply (proj1 (targets_purge _ _ _)) in X.
  eapply drops_gone; eauto.
Qed.

Section Unan.
Variable known : list Z.
Notation reach := (reach known).
Notation takes_part := (takes_part known).

Lemma NB_upd x y s : find_tx (x_g x) s = Some y -> nb x -> NB s -> NB (upd_tx x s).
Proof. intros F N H g z FZ. rewrite (find_upd x y) in FZ by auto. destruct (_ =? _); [injection FZ as <-; auto|]. exact (H g z FZ). Qed.
Lemma NB_txs s s' : s_txs s' = s_txs s -> NB s -> NB s'.
Proof. intros E H g x F. rewrite (find_txs g s) in F by auto. exact (H g x F). Qed.
Lemma NB_touch t rs s : NB s -> NB (touch t (involve rs) s).
Proof.
  intros H g x F. rewrite find_touched in F. destruct (_ =? _); [|exact (H g x F)]. injection F as <-. unfold nb. cbn [x_branches]. apply nb_at.
  unfold br_of. destruct (find_tx (t_g t) s) as [y|] eqn:FY; [exact (H _ _ FY)|]. simpl. constructor; [simpl; tauto|constructor].
Qed.
Lemma NB_remove g s s' a : V s -> remove_tx g s = (s', a) -> NB s -> NB s'.
Proof.
  intros HV R H h x F. apply remove_spec in R as (_&R2&_); [|apply (v_nd _ HV)]. rewrite R2 in F. destruct (_ =? _); [discriminate|]. exact (H h x F).
Qed.

Lemma reach_NB tr c : reach tr c -> NB (fst (fst c)).
Proof.
  induction 1 as [|tr c e c' R IH U|tr s D tk l n R IH].
  - intros g x F. discriminate.
  - pose proof (reach_V _ _ _ R) as HV. destruct U; cbn [fst] in *; auto using NB_touch.
    + apply (NB_upd _ x); auto. apply nb_purge. exact (IH _ _ H0).
    + intros g x F. rewrite find_snoc in F. destruct (find_tx g s) as [y|] eqn:FY; [injection F as <-; exact (IH _ _ FY)|]. destruct (_ =? _); [|discriminate].
      injection F as <-. unfold nb. simpl. constructor; [simpl; tauto|constructor].
    + eapply NB_remove; eauto.
    + rewrite ask_spec in H1. injection H1 as <- <- <-. pose proof (find_tx_g _ _ _ H0) as G. apply (NB_txs (upd_tx (set_stage st x) s)); [rewrite txs_w; auto|].
      apply (NB_upd _ x); auto; [cbn [set_stage x_g]; rewrite G; auto|exact (IH _ _ H0)].
    + apply (NB_txs s); [apply txs_w|auto].
    + eapply NB_remove; eauto.
    + eapply NB_remove; eauto.
    + eapply NB_remove; eauto.
    + pose proof (find_tx_g _ _ _ H0) as G. eapply NB_remove; [apply V_upd; exact HV|eauto|]. apply (NB_upd _ x); auto; [cbn [voted set_branches set_stage x_g]; rewrite G; auto|].
      apply nb_voted. exact (IH _ _ H0).
    + pose proof (find_tx_g _ _ _ H0) as G. apply (NB_txs (upd_tx (voted d x) s)); auto. apply (NB_upd _ x); auto; [cbn [voted set_branches set_stage x_g]; rewrite G; auto|].
      apply nb_voted. exact (IH _ _ H0).
    + pose proof (find_tx_g _ _ _ H0) as G. apply (NB_txs (upd_tx (voted d x) s)); [destruct (c_reply (d_call d)); auto|].
      apply (NB_upd _ x); auto; [cbn [voted set_branches set_stage x_g]; rewrite G; auto|]. apply nb_voted. exact (IH _ _ H0).
    + rewrite ask_spec in H2. injection H2 as <- <- <-. pose proof (find_tx_g _ _ _ H) as G. apply (NB_txs (upd_tx (set_stage Commit x) s)); auto.
      apply (NB_upd _ x); auto; [cbn [set_stage x_g]; rewrite G; auto|exact (IH _ _ H)].
    + pose proof (find_tx_g _ _ _ H0) as G. apply (NB_upd _ x); auto; [cbn [voted set_branches set_stage x_g]; rewrite G; auto|]. apply nb_voted. exact (IH _ _ H0).
    + rewrite ask_spec in H4. injection H4 as <- <- <-. pose proof (find_tx_g _ _ _ H0) as G.
      apply (NB_txs (upd_tx (set_stage Rollback (voted d x)) (upd_tx (voted d x) s))); auto.
      assert (FX : find_tx (origin_g d) (upd_tx (voted d x) s) = Some (voted d x)) by (rewrite (find_upd _ x); cbn [voted set_branches set_stage x_g]; rewrite G; [rewrite Z.eqb_refl; auto|auto]).
      apply (NB_upd _ (voted d x)); [cbn [voted set_branches set_stage x_g]; rewrite G; auto|exact (nb_voted d x (IH _ _ H0))|].
      apply (NB_upd _ x); auto; [cbn [voted set_branches set_stage x_g]; rewrite G; auto|]. apply nb_voted. exact (IH _ _ H0).
  - exact IH.
Qed.

(* ------------------------------------------------------------ what a prepared transaction has behind it *)

Definition Vote_asked (g : Z) (tr : list event) : Prop := exists c t r fl, In (Act (Ask KPrepare c t r fl)) tr /\ t_g t = g.
Definition Told_bad (g : Z) (tr : list event) : Prop :=
  exists a, In (Act (Answer a)) tr /\ a_kind a = ResPrepare /\ t_g (a_trid a) = g /\ a_code a <> Xa xa_ok.
Definition Voted_ok (g : Z) (tr : list event) (ts : list (trid * Z)) : Prop :=
  Vote_asked g tr /\ (forall b r, takes_part tr g b r -> answered KPrepare tr g b r voted_yes) /\
  (forall t r, In (t, r) ts -> answered KPrepare tr g (t_b t) r voted_ok).
Definition PP (g : Z) (tr : list event) (c : cfg) : Prop :=
  forall x, find_tx g (fst (fst c)) = Some x -> x_stage x = PostPrepare ->
    (exists d, snd c = Decided d /\ origin_g d = g) \/ Told_bad g tr \/ Voted_ok g tr (targets (x_branches x)).
Definition Granted (g : Z) (tr : list event) : Prop :=
  forall q cc t r rest, tr = q ++ Act (Ask KCommit cc t r false) :: rest -> t_g t = g ->
    (forall b r', takes_part q g b r' -> answered KPrepare q g b r' voted_yes) /\ answered KPrepare q g (t_b t) r voted_ok.

Lemma late_prefix g a b : nobody_late g (a ++ b) -> nobody_late g a.
Proof. intros H x c t r fl y i E G I. apply (H x c t r fl (y ++ b) i); auto; [rewrite E, <- app_assoc; auto|apply in_app_iff; auto]. Qed.
Lemma obeys_prefix g a b : upstream_obeys g (a ++ b) -> upstream_obeys g a.
Proof. intros H x p corr t r y z E G I. apply (H x p corr t r (y ++ b) z); auto. rewrite E, <- app_assoc; auto. Qed.
Lemma late_new g a b i : nobody_late g (a ++ b) -> Vote_asked g a -> In (Recv i) b -> ~ involves g i.
Proof.
  intros H (c&t&r&fl&I&G) J. apply in_split in I as (x&y&->). apply (H x c t r fl (y ++ b) i); auto; [rewrite <- app_assoc; auto|apply in_app_iff; auto].
Qed.

Lemma Voted_more g tr e ts ts' : nobody_late g (tr ++ e) -> (forall t r, In (t, r) ts' -> exists t', In (t', r) ts /\ t_b t' = t_b t) -> Voted_ok g tr ts -> Voted_ok g (tr ++ e) ts'.
Proof.
  intros NL S (A&B&C). split; [|split].
  - destruct A as (c&t&r&fl&I&G). exists c, t, r, fl. split; auto. apply in_app_iff; auto.
  - intros b r T. apply answered_right. apply B. eapply parts_back; eauto. intros i. apply (late_new g tr); auto.
  - intros t r I. apply answered_right. destruct (S t r I) as (t'&I'&<-). auto.
Qed.
Lemma Told_more g tr e : Told_bad g tr -> Told_bad g (tr ++ e).
Proof. intros (a&I&H). exists a. split; auto. apply in_app_iff. auto. Qed.

(* the transaction stays as it is, or loses some targets *)
Lemma PP_keep g tr e s s' D D' tk tk' : nobody_late g (tr ++ e) -> (forall d, tk = Decided d -> origin_g d = g -> exists d', tk' = Decided d' /\ origin_g d' = g) ->
  (forall x', find_tx g s' = Some x' -> x_stage x' = PostPrepare -> exists x, find_tx g s = Some x /\ x_stage x = PostPrepare /\
     (Vote_asked g tr -> forall t r, In (t, r) (targets (x_branches x')) -> exists t', In (t', r) (targets (x_branches x)) /\ t_b t' = t_b t)) ->
  PP g tr (s, D, tk) -> PP g (tr ++ e) (s', D', tk').
Proof.
  intros NL HT HX HP x' F' S'. cbn [fst snd] in *. destruct (HX x' F' S') as (x&F&S&SUB). destruct (HP x F S) as [(d&E&O)|[B|B]]; cbn [snd] in *.
  - left. destruct (HT d E O) as (d'&E'&O'). eauto.
  - right. left. apply Told_more. auto.
  - right. right. apply (Voted_more g tr e (targets (x_branches x))); auto. apply SUB. apply B.
Qed.

Lemma PP_same g tr e s s' D D' tk tk' : nobody_late g (tr ++ e) -> (forall d, tk = Decided d -> origin_g d = g -> exists d', tk' = Decided d' /\ origin_g d' = g) ->
  find_tx g s' = find_tx g s -> PP g tr (s, D, tk) -> PP g (tr ++ e) (s', D', tk').
Proof. intros NL HT HF. apply PP_keep; auto. intros x' F S. rewrite HF in F. exists x'. split; auto. split; auto. intros _ t r I. eauto. Qed.

Lemma PP_none g tr e s' D' tk' : (forall x, find_tx g s' = Some x -> x_stage x <> PostPrepare) -> PP g (tr ++ e) (s', D', tk').
Proof. intros H x F S. exfalso. exact (H x F S). Qed.

Lemma PP_remove g h tr e s s0 s' a D D' tk tk' : V s0 -> nobody_late g (tr ++ e) -> (forall d, tk <> Decided d) -> (g <> h -> find_tx g s0 = find_tx g s) ->
  remove_tx h s0 = (s', a) -> PP g tr (s, D, tk) -> PP g (tr ++ e) (s', D', tk').
Proof.
  intros HV NL HT HF R HP. apply remove_spec in R as (_&R2&_); [|apply (v_nd _ HV)]. destruct (Z.eqb_spec h g) as [->|N].
  - apply PP_none. intros x F. rewrite R2, Z.eqb_refl in F. discriminate.
  - apply (PP_same g tr e s s' D D' tk tk'); auto; [intros d E; exfalso; exact (HT d E)|]. rewrite R2. destruct (Z.eqb_spec h g); [tauto|]. apply HF. auto.
Qed.

Lemma Granted_none g tr e : (forall cc t r, t_g t = g -> ~ In (Act (Ask KCommit cc t r false)) e) -> Granted g tr -> Granted g (tr ++ e).
Proof.
  intros N H q cc t r rest E G. apply split_app in E as [(r1&E)|(q2&->&E)]; [eapply H; eauto|]. exfalso. apply (N cc t r G). rewrite E. apply in_app_iff. simpl. auto.
Qed.
Lemma Granted_asked g tr k fl c ts : (k = KCommit -> fl = false -> forall t r, In (t, r) ts -> t_g t = g ->
    (forall b r', takes_part tr g b r' -> answered KPrepare tr g b r' voted_yes) /\ answered KPrepare tr g (t_b t) r voted_ok) ->
  Granted g tr -> Granted g (tr ++ map Act (asked k fl c ts)).
Proof.
  intros HA H q cc t r rest E G. apply split_app in E as [(r1&E)|(q2&->&E)]; [eapply H; eauto|].
  assert (I : In (Act (Ask KCommit cc t r false)) (map Act (asked k fl c ts))) by (rewrite E; apply in_app_iff; simpl; auto).
  assert (FL : fl = false). { apply in_map_iff in I as (y&EY&I). injection EY as ->. apply In_nth_error in I as (n&I). rewrite asked_nth in I. destruct (nth_error ts n) as [[? ?]|]; [|discriminate]. injection I. auto. }
  apply asks_in in I as [K I]. destruct (HA (eq_sym K) FL t r I G) as [A B]. split; [|apply answered_right; auto].
  intros b r' T. apply answered_right. apply A. assert (NT : forallb neutral q2 = true).
  { pose proof (neutral_asked k fl ts c) as X. rewrite E in X. rewrite forallb_app in X. apply andb_true_iff in X. tauto. }
  exact (proj1 (parts_neutral known q2 tr g b r' NT) T).
Qed.

(* the vote of a prepared transaction *)
Lemma vote_result tr s D d r x g : reach tr (s, D, Idle) -> honest tr -> nobody_late g tr -> td_p D = d :: r -> find_tx g s = Some x -> origin_g d = g -> code_of d = xa_ok ->
  Voted_ok g tr (targets (x_branches (voted d x))).
Proof.
  intros R HO NL E F G CO. pose proof (reach_P _ _ _ R) as HP. pose proof (reach_NB _ _ R) as HN. pose proof (reach_Book _ _ _ R) as HB. pose proof (reach_BM _ _ _ R) as BMX. cbn [fst] in *.
  assert (PV : prov_d known tr KPrepare d) by (apply (p_d _ _ _ HP KPrepare); cbn [fst snd d_of]; rewrite E; left; auto).
  destruct PV as (pre&fl&ts&c&post1&post2&ET&RD&EN&NR). assert (RD' := RD). apply prepare_round in RD' as (->&pre0&i&EP&AS&CV1&CV2).
  destruct (vote_passed known tr pre ts c post1 post2 d HO ET RD EN CO) as (VP1&_&TS). unfold code_of in CO. destruct (vote_codes _ _ CO) as (NF&YES&_).
  assert (VA : Vote_asked g tr).
  { destruct ts as [|[t1 r1] ts]; [tauto|]. destruct (CV1 t1 r1 (or_introl eq_refl)) as [G1 _]. exists c, t1, r1, false. split; [|rewrite G1; exact G].
    rewrite ET. cbn [asked map]. apply in_app_iff. right. simpl. auto. }
  assert (BACK : forall b r', takes_part tr g b r' -> takes_part pre g b r').
  { intros b r' T. rewrite ET in T. apply (parts_back known (map Act (asked KPrepare false c ts) ++ post1 ++ post2)); auto. intros j J.
    destruct ts as [|[t1 r1] ts]; [tauto|]. destruct (CV1 t1 r1 (or_introl eq_refl)) as [G1 _].
    apply (NL pre c t1 r1 false (map Act (asked KPrepare false (c + 1) ts) ++ post1 ++ post2)); [rewrite ET; reflexivity|unfold origin_g in G; congruence|].
    cbn [asked map app] in J. destruct J as [J|J]; [discriminate|auto]. }
  split; [auto|]. split.
  - intros b r' T. rewrite ET. apply answered_left. rewrite app_assoc. apply answered_right. rewrite <- G. apply VP1. rewrite G. auto.
  - intros t r' I. assert (I0 := I). apply targets_voted in I. specialize (HB g). rewrite F in HB. destruct HB as [HB _]. specialize (HB t r' I). apply BACK in HB.
    rewrite <- G in HB. destruct (CV2 _ _ HB) as (t'&I'&ETB). destruct (CV1 _ _ I') as [G' _]. apply In_nth_error in I' as (n&N).
    destruct (ended_all _ _ _ _ _ EN NF n t' r' N) as (v&V1&V2&V3). destruct (honest_vote _ _ _ _ _ _ _ _ _ _ _ _ HO ET N V3) as [H1 H2].
    assert (VO : v_code v = xa_ok).
    { destruct (YES v V1) as [Y|Y]; auto. exfalso. apply (voted_not_ro d x t r' v); [exact (HN _ _ F)| | |auto|auto].
      - unfold ro_of. destruct (partition_pure (fun v => negb (vote_is read_only v)) (votes d)) as [f b] eqn:EP2. apply GroupProofs.partition_pure_perm in EP2 as [_ P2]. cbn [snd].
        apply (Permutation_in v (Permutation_sym P2)). apply filter_In. split; auto. unfold vote_is. rewrite Y. reflexivity.
      - rewrite H1. apply same_xid_iff. rewrite ETB. f_equal. rewrite G'. apply in_targets in I as (bb&BI&<-&_). destruct (BMX x bb (in_txs_find _ _ _ F) BI) as [_ X].
        rewrite (find_tx_g _ _ _ F) in X. unfold origin_g in G. congruence. }
    rewrite ET. apply answered_left. rewrite <- G, <- ETB. unfold origin_g. rewrite <- G'. eapply answered_of; eauto.
Qed.

Theorem reach_granted g tr c : reach tr c -> honest tr -> nobody_late g tr -> upstream_obeys g tr -> PP g tr c /\ Granted g tr.
Proof.
  induction 1 as [|tr c e c' R IH U|tr s D tk l n R IH]; intros HO NL UO.
  - split; [intros x F; discriminate|]. intros q cc t r rest E. destruct q; discriminate.
  - specialize (IH (honest_prefix _ _ HO) (late_prefix _ _ _ NL) (obeys_prefix _ _ _ UO)). destruct IH as [HP HG].
    pose proof (reach_V _ _ _ R) as HV. destruct U; cbn [fst snd] in *.
    + split; [|apply Granted_none; auto; intros cc t r _ [I|[]]; discriminate]. apply (PP_same g tr _ s s D0 D0 Idle); auto. discriminate.
    + split; [|apply Granted_none; auto; intros cc t' r _ [I|[]]; discriminate]. apply (PP_keep g tr _ s _ D0 D0 Idle); auto; [discriminate|].
      intros x' F S. rewrite find_touched in F. destruct (Z.eqb_spec (t_g t) g) as [EG|EG]; [|exists x'; split; [auto|split; auto]; intros _ u r I; eauto].
      injection F as <-. cbn [x_stage x_branches] in *. rewrite EG in *. destruct (find_tx g s) as [x|] eqn:FX; cbn [st_of br_of] in *; [|discriminate].
      exists x. split; auto. split; auto. intros VA u r I. destruct H as (MI&rs'&K1&K2&K3&K4).
      assert (RS : rs' = []). { destruct rs' as [|y rs']; auto. exfalso. rewrite EG in K4. apply (late_new g tr [Recv i] i NL VA (or_introl eq_refl)). apply K4. discriminate. }
      assert (RS' : rs = []). { destruct rs as [|y rs]; auto. specialize (K2 y (or_introl eq_refl)). rewrite RS in K2. destruct K2. }
      subst rs. assert (X : exists u', In (u', r) (targets (at_branch t (involve []) (x_branches x))) /\ t_b u' = t_b u /\ t_g u' = t_g t).
      { exists u. split; auto. split; auto. apply in_targets in I as (bb&BI&<-&_). assert (R2 : reach (tr ++ [Recv i]) (touch t (involve []) s, D0, tok_of i)).
        { eapply r_micro; eauto. apply u_involve. split; auto. exists rs'. auto. }
        pose proof (reach_BM _ _ _ R2) as BMX. cbn [fst] in BMX. assert (FT : find_tx g (touch t (involve []) s) = Some (mk_x (t_g t) (at_branch t (involve []) (x_branches x)) (x_stage x))).
        { rewrite find_touched, EG, Z.eqb_refl, FX. auto. }
        destruct (BMX _ bb (in_txs_find _ _ _ FT) BI) as [_ Y]. cbn [x_g] in Y. auto. }
      apply targets_involved in X. destruct X as [(u'&I'&E1&E2)|(_&[])]. exists u'. auto.
    + rewrite app_nil_r in *. rewrite <- (app_nil_r tr) in NL |- *. split; [|rewrite app_nil_r; auto]. apply (PP_keep g tr _ s _ D D tk); auto; [intros d E O; eauto|].
      intros x' F S. rewrite find_touched in F. destruct (Z.eqb_spec (t_g t) g) as [EG|EG]; [|exists x'; split; [auto|split; auto]; intros _ u r I; eauto].
      injection F as <-. cbn [x_stage x_branches] in *. rewrite EG in *. destruct (find_tx g s) as [x|] eqn:FX; cbn [st_of br_of] in *; [|discriminate].
      exists x. split; auto. split; auto. intros VA u r I.
      assert (X : exists u', In (u', r) (targets (at_branch t (involve []) (x_branches x))) /\ t_b u' = t_b u /\ t_g u' = t_g t).
      { exists u. split; auto. split; auto. apply in_targets in I as (bb&BI&<-&_). assert (R2 : reach (tr ++ []) (touch t (involve []) s, D, tk)) by (eapply r_micro; eauto; apply u_touch; auto).
        pose proof (reach_BM _ _ _ R2) as BMX. cbn [fst] in BMX. assert (FT : find_tx g (touch t (involve []) s) = Some (mk_x (t_g t) (at_branch t (involve []) (x_branches x)) (x_stage x))).
        { rewrite find_touched, EG, Z.eqb_refl, FX. auto. }
        destruct (BMX _ bb (in_txs_find _ _ _ FT) BI) as [_ Y]. cbn [x_g] in Y. auto. }
      apply targets_involved in X. destruct X as [(u'&I'&E1&E2)|(_&[])]. exists u'. auto.
    + split; [|rewrite app_nil_r; auto]. apply (PP_keep g tr _ s _ D D tk); auto; [intros d E O; eauto|].
      intros x' F S. rewrite (find_upd _ x) in F by auto. cbn [set_branches x_g] in F. destruct (Z.eqb_spec (x_g x) g) as [EG|EG]; [|exists x'; split; [auto|split; auto]; intros _ u r I; eauto].
      injection F as <-. rewrite EG in *. exists x. split; auto. split; auto. intros _ t r I. cbn [set_branches x_branches] in I. apply (proj1 (targets_purge _ _ _)) in I. eauto.
    + split; [|rewrite app_nil_r; auto]. apply (PP_keep g tr _ s _ D D tk); auto; [intros d E O; eauto|].
      intros x' F S. rewrite find_snoc in F. destruct (find_tx g s) as [y|] eqn:FY.
      * injection F as <-. exists y. split; auto. split; auto. intros _ u r I; eauto.
      * destruct (_ =? _); [|discriminate]. injection F as <-. discriminate.
    + split; [|apply Granted_none; auto; intros cc t r _ [I|[]]; injection I as ->; discriminate]. apply (PP_same g tr _ s s D D Idle); auto. discriminate.
    + split; [|apply Granted_none; auto; intros cc t r _ [I|[]]; discriminate]. apply (PP_same g tr _ s s D D (Req i)); auto. discriminate.
    + split; [|apply Granted_none; auto; intros cc t r _ [I|I]; [discriminate|eapply no_asks_remove; eauto]].
      apply (PP_remove g g0 tr _ s s s' a' D D (Req i) Idle); auto. discriminate.
    + pose proof (find_tx_g _ _ _ H0) as G. rewrite ask_spec in H1. injection H1 as <- <- <-. split.
      * destruct (Z.eq_dec (x_g x) g) as [EG|EG].
        -- apply PP_none. intros y F. rewrite (find_txs g (upd_tx (set_stage st x) s)) in F by (rewrite txs_w; auto). rewrite (find_upd _ x) in F by (cbn [set_stage x_g]; rewrite G; auto).
           cbn [set_stage x_g] in F. rewrite EG, Z.eqb_refl in F. injection F as <-. cbn [set_stage x_stage].
           destruct H as [_ H]. destruct tk as [|i|d]; [| |destruct H].
           ++ destruct H as (t&pid&_&_&_&->&_). destruct (x_stage x); discriminate.
           ++ destruct i; try (destruct H; fail).
              ** destruct H as (_&->&[(_&_&->&_)|(_&_&->&_)]); discriminate.
              ** destruct H as (_&_&_&->). destruct (x_stage x); discriminate.
              ** destruct H as (_&->&_&_&->). discriminate.
              ** destruct H as (_&_&[(->&_&_&->)|(->&_&_&->)]); discriminate.
              ** destruct H as (_&_&_&->&_). destruct (x_stage x); discriminate.
        -- apply (PP_same g tr _ s _ D _ tk); auto.
           ++ intros d ->. destruct H as [_ []].
           ++ rewrite (find_txs g (upd_tx (set_stage st x) s)) by (rewrite txs_w; auto). rewrite (find_upd _ x) by (cbn [set_stage x_g]; rewrite G; auto). cbn [set_stage x_g]. destruct (Z.eqb_spec (x_g x) g); [tauto|auto].
      * apply Granted_asked; auto. intros -> -> t r I GT. destruct H as [CB H].
        assert (TG : t_g (c_origin cb) = g).
        { apply in_targets in I as (bb&BI&<-&_). pose proof (reach_BM _ _ _ R) as BMX. cbn [fst] in BMX. destruct (BMX x bb (in_txs_find _ _ _ H0) BI) as [_ Y]. congruence. }
        destruct tk as [|i|d]; [destruct H as (?&?&_&?&_); discriminate| |destruct H]. destruct i; try (destruct H; fail).
        -- destruct H as (_&_&[(_&?&_)|(?&_)]); discriminate.
        -- destruct H as (_&?&_); discriminate.
        -- destruct H as (_&_&?&_); discriminate.
        -- destruct H as (CBE&_&[(SX&_)|(_&?&_)]); [|discriminate]. rewrite TG in H0. destruct (HP x H0 SX) as [(d&E&_)|[B|B]]; [discriminate| |].
           ++ exfalso. destruct (reach_token _ _ _ R _ eq_refl) as (pre0&ET). destruct B as (y&IY&KY&GY&CY). apply CY.
              eapply (UO pre0 p corr t0 r0 _ y); [rewrite ET, <- app_assoc; reflexivity| | |exact KY|exact GY].
              ** rewrite CBE in TG. exact TG.
              ** rewrite ET in IY. apply in_app_iff in IY as [IY|[IY|[]]]; [auto|discriminate].
           ++ destruct B as (_&B1&B2). split; auto.
        -- destruct H as (_&?&_); discriminate.
    + split; [|apply Granted_none; auto; intros cc t r _ [I|[]]; destruct H; discriminate]. apply (PP_same g tr _ s _ D0 _ Idle); auto; [discriminate|]. apply find_txs. apply txs_w.
    + split; [|apply Granted_none; auto; intros cc t r' _ [I|I]; [discriminate|eapply no_asks_remove; eauto]].
      apply (PP_remove g (origin_g d) tr _ s s s' a' D _ Idle Idle); auto. discriminate.
    + split; [|apply Granted_none; auto; intros cc t r' _ [I|I]; [discriminate|eapply no_asks_remove; eauto]].
      apply (PP_remove g (origin_g d) tr _ s s s' a' D _ Idle Idle); auto. discriminate.
    + split; [|apply Granted_none; auto; intros cc t r' _ I; eapply no_asks_remove; eauto].
      apply (PP_remove g (origin_g d) tr _ s s s' a' D _ Idle Idle); auto. discriminate.
    + split; [|rewrite app_nil_r; auto]. apply (PP_same g tr _ s s D _ Idle); auto. discriminate.
    + split; [|rewrite app_nil_r; auto]. apply (PP_same g tr _ s s D _ Idle); auto. discriminate.
    + pose proof (find_tx_g _ _ _ H0) as G. split; [|apply Granted_none; auto; intros cc t r' _ [I|I]; [discriminate|eapply no_asks_remove; eauto]].
      apply (PP_remove g (origin_g d) tr _ s (upd_tx (voted d x) s) s' a' D _ Idle Idle); auto using V_upd; [discriminate|].
      intros N. rewrite (find_upd _ x) by (cbn [voted set_branches set_stage x_g]; rewrite G; auto). cbn [voted set_branches set_stage x_g]. rewrite G. destruct (Z.eqb_spec (origin_g d) g); [congruence|auto].
    + pose proof (find_tx_g _ _ _ H0) as G. split; [|apply Granted_none; auto; intros cc t r' _ [I|[]]; discriminate].
      assert (FU : forall h, find_tx h (upd_tx (voted d x) s) = if origin_g d =? h then Some (voted d x) else find_tx h s).
      { intros h. rewrite (find_upd _ x) by (cbn [voted set_branches set_stage x_g]; rewrite G; auto). cbn [voted set_branches set_stage x_g]. rewrite G. auto. }
      destruct (Z.eq_dec (origin_g d) g) as [EG|EG].
      * intros y F S. cbn [fst snd] in *. change (find_tx g (upd_tx (voted d x) s) = Some y) in F. rewrite FU, EG, Z.eqb_refl in F. injection F as <-. right. right.
        apply (Voted_more g tr _ (targets (x_branches (voted d x)))); auto; [intros t r' I; eauto|]. eapply vote_result; eauto; [eapply honest_prefix; eauto|eapply late_prefix; eauto|congruence].
      * apply (PP_same g tr _ s _ D _ Idle); auto; [discriminate|]. change (find_tx g (upd_tx (voted d x) s) = find_tx g s). rewrite FU. destruct (Z.eqb_spec (origin_g d) g); [tauto|auto].
    + pose proof (find_tx_g _ _ _ H0) as G. split; [|apply Granted_none; auto; intros cc t r' _ [I|[]]; discriminate].
      destruct (Z.eq_dec (origin_g d) g) as [EG|EG].
      * intros y F S. cbn [fst snd] in *. left. eauto.
      * apply (PP_same g tr _ s _ D _ Idle); auto; [discriminate|].
        transitivity (find_tx g (upd_tx (voted d x) s)); [apply find_txs; destruct (c_reply (d_call d)); auto|].
        rewrite (find_upd _ x) by (cbn [voted set_branches set_stage x_g]; rewrite G; auto). cbn [voted set_branches set_stage x_g]. rewrite G. destruct (Z.eqb_spec (origin_g d) g); [tauto|auto].
    + split; [|apply Granted_none; auto; intros cc t r' _ [I|I]; [discriminate|]; apply in_map_iff in I as (y&E&_); discriminate].
      apply (PP_same g tr _ s _ D D tk); auto. intros d E O. eauto.
    + pose proof (find_tx_g _ _ _ H) as G. rewrite ask_spec in H2. injection H2 as <- <- <-. split.
      * destruct (Z.eq_dec (x_g x) g) as [EG|EG].
        -- apply PP_none. intros y F. rewrite (find_txs g (upd_tx (set_stage Commit x) s)) in F by auto. rewrite (find_upd _ x) in F by (cbn [set_stage x_g]; rewrite G; auto).
           cbn [set_stage x_g] in F. rewrite EG, Z.eqb_refl in F. injection F as <-. cbn [set_stage x_stage]. destruct (x_stage x); discriminate.
        -- apply (PP_same g tr _ s _ D _ (Decided d)); auto; [intros d' E O; injection E as <-; congruence|].
           rewrite (find_txs g (upd_tx (set_stage Commit x) s)) by auto. rewrite (find_upd _ x) by (cbn [set_stage x_g]; rewrite G; auto). cbn [set_stage x_g]. destruct (Z.eqb_spec (x_g x) g); [tauto|auto].
      * apply Granted_asked; auto. intros _ _ t r I GT. pose proof (reach_P _ _ _ R) as HPV. destruct (p_t _ _ _ HPV d eq_refl) as (PV&_).
        destruct PV as (pre&fl&ts&c&post1&post2&ET&RD&EN&NR). assert (RD' := RD). apply prepare_round in RD' as (->&pre0&i&EP&AS&CV1&CV2).
        destruct (vote_passed known tr pre ts c post1 post2 d (honest_prefix _ _ HO) ET RD EN H1) as (VP1&VP2&TS). destruct (VP2 t r I) as [G1 A]. rewrite <- GT. split.
        -- intros b r' T. rewrite ET. apply answered_left. rewrite app_assoc. apply answered_right. rewrite G1. apply VP1. rewrite <- G1.
           apply (parts_back known (map Act (asked KPrepare false c ts) ++ post1 ++ post2)); [rewrite <- ET; auto|]. intros j J.
           destruct ts as [|[t1 r1] ts]; [tauto|]. destruct (CV1 t1 r1 (or_introl eq_refl)) as [GX _]. rewrite GT.
           apply (late_prefix _ _ _ NL pre c t1 r1 false (map Act (asked KPrepare false (c + 1) ts) ++ post1 ++ post2)); [rewrite ET; reflexivity|unfold origin_g in *; congruence|].
           cbn [asked map app] in J. destruct J as [J|J]; [discriminate|exact J].
        -- rewrite ET. apply answered_left. rewrite app_assoc. apply answered_right. exact A.
    + pose proof (find_tx_g _ _ _ H0) as G. split; [|apply Granted_none; auto; intros cc t r' _ [I|[]]; discriminate].
      destruct (Z.eq_dec (origin_g d) g) as [EG|EG].
      * intros y F S. cbn [fst snd] in *. right. left. eexists. split; [apply in_app_iff; right; left; reflexivity|]. cbn [create_reply a_kind a_trid a_code]. split; auto. split; [exact EG|].
        rewrite H3. cbn [reply_code]. intros E. injection E as E. destruct (code_of d); cbn [normal] in E; try discriminate. apply H2. reflexivity.
      * apply (PP_same g tr _ s _ D _ Idle); auto; [discriminate|].
        rewrite (find_upd _ x) by (cbn [voted set_branches set_stage x_g]; rewrite G; auto). cbn [voted set_branches set_stage x_g]. rewrite G. destruct (Z.eqb_spec (origin_g d) g); [tauto|auto].
    + pose proof (find_tx_g _ _ _ H0) as G. rewrite ask_spec in H4. injection H4 as <- <- <-. split.
      * assert (FX : find_tx (origin_g d) (upd_tx (voted d x) s) = Some (voted d x)) by (rewrite (find_upd _ x); cbn [voted set_branches set_stage x_g]; rewrite G; [rewrite Z.eqb_refl; auto|auto]).
        assert (FF : find_tx g (upd_tx (set_stage Rollback (voted d x)) (upd_tx (voted d x) s)) = if origin_g d =? g then Some (set_stage Rollback (voted d x)) else find_tx g s).
        { rewrite (find_upd _ (voted d x)) by (cbn [voted set_branches set_stage x_g]; rewrite G; auto). cbn [voted set_branches set_stage x_g]. rewrite G. destruct (origin_g d =? g) eqn:EG; auto.
          rewrite (find_upd _ x) by (cbn [voted set_branches set_stage x_g]; rewrite G; auto). cbn [voted set_branches set_stage x_g]. rewrite G, EG. auto. }
        destruct (Z.eqb_spec (origin_g d) g) as [EG|EG].
        -- apply PP_none. intros y F. match type of F with find_tx g (w_r _ (w_next _ ?z)) = _ => change (find_tx g z = Some y) in F end. rewrite FF in F. injection F as <-. cbn [set_stage x_stage]. destruct (x_stage (voted d x)); discriminate.
        -- apply (PP_same g tr _ s _ D _ Idle); auto. discriminate.
      * apply Granted_asked; auto. discriminate.
  - destruct (IH HO NL UO) as [A B]. split; auto.
Qed.

End Unan.

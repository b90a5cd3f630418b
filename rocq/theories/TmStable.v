(* A decision is not changed while the transaction is remembered (C15). *)
From Coq Require Import ZArith List Bool Lia Permutation.
From Verif Require Import CodesModel FanModel FanSpec FanProofs FanTrack TmModel TmSpec TmMicro TmFacts TmProv TmVotes TmFlow.
From Verif Require GroupModel GroupProofs.
Import ListNotations.
Local Open Scope Z_scope.

Lemma honest_prefix a b : honest (a ++ b) -> honest a.
Proof. intros H k c v t r fl I1 I2. apply (H k c v t r fl); apply in_app_iff; auto. Qed.

Section Stable.
Variable known : list Z.
Notation reach := (reach known).

(* the targets of the second round belong to the transaction *)
Lemma active_g tr d t r : honest tr -> prov_d known tr KPrepare d -> In (t, r) (map vote_target (active_of d)) -> t_g t = origin_g d.
Proof.
  intros HO (pre&fl&ts&c&post1&post2&ET&RD&EN&NR) I. apply in_map_iff in I as (v&E&I). unfold vote_target in E. injection E as <- <-.
  unfold active_of in I. apply partition_in in I as [I _]. destruct (ended_votes _ _ _ _ _ _ EN I) as (n&t&r&N&RP&RV).
  destruct (honest_vote _ _ _ _ _ _ _ _ _ _ _ _ HO ET N RV) as [-> _]. apply prepare_round in RD as (_&_&_&_&_&CV&_). apply (CV t r). eapply nth_error_In. eauto.
Qed.

Definition stk (k : kind) (st : stage) : Prop := match k with KPrepare => st <> Involved | KCommit => st = Commit | KRollback => st = Rollback end.
Definition K (g : Z) (tr : list event) (s : tm) : Prop :=
  forall a k c t r fl b, tr = a ++ Act (Ask k c t r fl) :: b -> t_g t = g -> ~ In (Act (Removed g)) b -> exists x, find_tx g s = Some x /\ stk k (x_stage x).
Definition compatible (k1 k2 : kind) : Prop := (k1 = KCommit -> k2 = KCommit) /\ (k1 = KRollback -> k2 = KRollback).
Definition Pairs (g : Z) (tr : list event) : Prop :=
  forall a k1 c1 t1 r1 f1 b k2 c2 t2 r2 f2 rest, tr = a ++ Act (Ask k1 c1 t1 r1 f1) :: b ++ Act (Ask k2 c2 t2 r2 f2) :: rest ->
    t_g t1 = g -> t_g t2 = g -> ~ In (Act (Removed g)) b -> compatible k1 k2.


Lemma split_at {A} (a b q : list A) x rest : a ++ b = q ++ x :: rest -> (exists r1, a = q ++ x :: r1 /\ rest = r1 ++ b) \/ (exists q2, q = a ++ q2 /\ b = q2 ++ x :: rest).
Proof.
  revert q. induction a as [|y a IH]; intros q H; simpl in H.
  - right. exists q. auto.
  - destruct q as [|z q]; simpl in H.
    + injection H as <- <-. left. exists a. auto.
    + injection H as <- H. destruct (IH q H) as [(r1&->&->)|(q2&->&->)]; [left; exists r1; auto|right; exists q2; auto].
Qed.

Definition no_asks (g : Z) (e : list event) : Prop := forall k c t r fl, In (Act (Ask k c t r fl)) e -> t_g t <> g.

Lemma K_keep g tr s e s' : no_asks g e ->
  In (Act (Removed g)) e \/ (forall x k, find_tx g s = Some x -> stk k (x_stage x) -> exists x', find_tx g s' = Some x' /\ stk k (x_stage x')) ->
  K g tr s -> K g (tr ++ e) s'.
Proof.
  intros NA H HK a k c t r fl b E G NR. apply split_at in E as [(r1&E&->)|(q2&E1&E2)].
  - destruct (HK _ _ _ _ _ _ _ E G) as (x&F&S); [intros I; apply NR; apply in_app_iff; auto|].
    destruct H as [H|H]; [exfalso; apply NR; apply in_app_iff; auto|]. eauto.
  - exfalso. apply (NA k c t r fl); auto. rewrite E2. apply in_app_iff. simpl. auto.
Qed.

Lemma Pairs_keep g tr e : no_asks g e -> Pairs g tr -> Pairs g (tr ++ e).
Proof.
  intros NA HP a k1 c1 t1 r1 f1 b k2 c2 t2 r2 f2 rest E G1 G2 NR. rewrite (app_comm_cons b), app_assoc in E.
  apply split_at in E as [(x&E&->)|(q2&E1&E2)].
  - rewrite <- app_assoc in E. cbn [app] in E. eapply HP; eauto.
  - exfalso. apply (NA k2 c2 t2 r2 f2); auto. rewrite E2. apply in_app_iff. simpl. auto.
Qed.

Definition free (o : option txn) : Prop := forall x, o = Some x -> x_stage x <> Commit /\ x_stage x <> Rollback.

Lemma asks_in k fl ts c k' c' t r fl' : In (Act (Ask k' c' t r fl')) (map Act (asked k fl c ts)) -> k' = k /\ In (t, r) ts.
Proof.
  intros I. apply in_map_iff in I as (a&E&I). injection E as ->. apply In_nth_error in I as (n&N). rewrite asked_nth in N. destruct (nth_error ts n) as [[t0 r0]|] eqn:M; [|discriminate].
  injection N as -> _ -> -> _. split; auto. eapply nth_error_In; eauto.
Qed.
Lemma no_removed k fl ts c g : ~ In (Act (Removed g)) (map Act (asked k fl c ts)).
Proof.
  intros I. apply in_map_iff in I as (a&E&I). injection E as ->. apply In_nth_error in I as (n&N). rewrite asked_nth in N. destruct (nth_error ts n) as [[t0 r0]|]; discriminate.
Qed.

Lemma K_asks g h tr s s' k fl c ts x : (forall t r, In (t, r) ts -> t_g t = h) ->
  (g = h -> free (find_tx g s) /\ find_tx g s' = Some x /\ stk k (x_stage x) /\ x_stage x <> Involved) -> (g <> h -> find_tx g s' = find_tx g s) ->
  K g tr s -> Pairs g tr -> K g (tr ++ map Act (asked k fl c ts)) s' /\ Pairs g (tr ++ map Act (asked k fl c ts)).
Proof.
  intros HT H1 H2 HK HP. destruct (Z.eq_dec g h) as [->|N].
  - destruct (H1 eq_refl) as (FR&FX&SX&SI). split.
    + intros a k' c' t r fl' b E G NR. exists x. split; auto. apply split_at in E as [(r1&E&->)|(q2&E1&E2)].
      * destruct (HK _ _ _ _ _ _ _ E G) as (x0&F&S); [intros I; apply NR; apply in_app_iff; auto|]. destruct (FR x0 F) as [A B].
        destruct k'; cbn [stk] in *; auto; contradiction.
      * assert (I : In (Act (Ask k' c' t r fl')) (map Act (asked k fl c ts))) by (rewrite E2; apply in_app_iff; simpl; auto). apply asks_in in I as [-> _]. auto.
    + intros a k1 c1 t1 r1 f1 b k2 c2 t2 r2 f2 rest E G1 G2 NR.
      assert (E0 : tr ++ map Act (asked k fl c ts) = (a ++ Act (Ask k1 c1 t1 r1 f1) :: b) ++ Act (Ask k2 c2 t2 r2 f2) :: rest) by (rewrite E, <- app_assoc; auto).
      apply split_at in E0 as [(y&E1&->)|(q2&E1&E2)].
      * rewrite <- app_assoc in E1. cbn [app] in E1. eapply HP; eauto.
      * assert (I : In (Act (Ask k2 c2 t2 r2 f2)) (map Act (asked k fl c ts))) by (rewrite E2; apply in_app_iff; simpl; auto). apply asks_in in I as [-> _].
        symmetry in E1. apply split_at in E1 as [(y&E3&->)|(q3&E3&E4)].
        -- destruct (HK _ _ _ _ _ _ _ E3 G1) as (x0&F&S); [intros I; apply NR; apply in_app_iff; auto|]. destruct (FR x0 F) as [A B].
           destruct k1; cbn [stk] in *; try contradiction. split; discriminate.
        -- assert (I : In (Act (Ask k1 c1 t1 r1 f1)) (map Act (asked k fl c ts))) by (rewrite E2, E4; apply in_app_iff; left; apply in_app_iff; simpl; auto).
           apply asks_in in I as [-> _]. split; auto.
  - assert (NA : no_asks g (map Act (asked k fl c ts))) by (intros k' c' t r fl' I G; apply asks_in in I as [_ I]; apply HT in I; congruence).
    split; [|apply Pairs_keep; auto]. apply (K_keep g tr s); [exact NA| |exact HK]. right. intros y k' F S. exists y. rewrite H2; auto.
Qed.

Lemma no_asks_acts g a : (forall k c t r fl, ~ In (Ask k c t r fl) a) -> no_asks g (map Act a).
Proof. intros H k c t r fl I. apply in_map_iff in I as (x&E&I). injection E as ->. exfalso. eapply H; eauto. Qed.
Lemma no_asks_cons g x e : (forall k c t r fl, x <> Act (Ask k c t r fl)) -> no_asks g e -> no_asks g (x :: e).
Proof. intros H N k c t r fl [I|I]; [exfalso; eapply H; eauto|eapply N; eauto]. Qed.
Lemma no_asks_nil g : no_asks g []. Proof. intros k c t r fl []. Qed.
Lemma no_asks_remove g h s s' a : remove_tx h s = (s', a) -> no_asks g (map Act a).
Proof. intros R. apply no_asks_acts. unfold remove_tx in R. destruct (find_tx _ _); injection R as <- <-; intros k0 c0 t0 r0 fl0 I; simpl in I; [destruct I as [I|[]]; discriminate|destruct I]. Qed.

Lemma K_removed g h tr s s0 s' a e : V s0 -> find_tx g s0 = find_tx g s \/ g = h /\ (find_tx g s <> None -> find_tx g s0 <> None) -> remove_tx h s0 = (s', a) ->
  no_asks g e -> K g tr s -> K g (tr ++ e ++ map Act a) s'.
Proof.
  intros HV HF RM NA HK. pose proof (no_asks_remove g h _ _ _ RM) as NR. apply remove_spec in RM as (_&R2&_&_&_&_&_&->); [|apply (v_nd _ HV)].
  apply (K_keep g tr s); [| |exact HK].
  - intros k c t r fl I. apply in_app_iff in I as [I|I]; [apply (NA _ _ _ _ _ I)|apply (NR _ _ _ _ _ I)].
  - destruct (Z.eqb_spec h g) as [->|N].
    + destruct (find_tx g s0) as [x|] eqn:F.
      * left. apply in_app_iff. right. simpl. auto.
      * right. intros x k FX. exfalso. destruct HF as [HF|[_ HF]]; [congruence|]. apply HF; congruence.
    + right. intros x k F S. exists x. rewrite R2. destruct (Z.eqb_spec h g); [tauto|]. destruct HF as [->|[-> _]]; [auto|tauto].
Qed.

Lemma stable_stage g tr s e s' : no_asks g e -> (forall x, find_tx g s = Some x -> exists x', find_tx g s' = Some x' /\ x_stage x' = x_stage x) -> K g tr s -> K g (tr ++ e) s'.
Proof. intros NA H. apply K_keep; auto. right. intros x k F S. destruct (H x F) as (x'&F'&E). exists x'. rewrite E. auto. Qed.

Lemma stage_touch g t f s x : find_tx g s = Some x -> exists x', find_tx g (touch t f s) = Some x' /\ x_stage x' = x_stage x.
Proof. intros F. rewrite find_touched. destruct (Z.eqb_spec (t_g t) g) as [E|N]; eauto. eexists. split; [reflexivity|]. cbn [x_stage]. rewrite E, F. auto. Qed.

Lemma vote_from_prepare g tr s D d r : reach tr (s, D, Idle) -> undisturbed g tr -> td_p D = d :: r -> origin_g d = g ->
  exists x, find_tx g s = Some x /\ x_stage x = Prepare.
Proof.
  intros R U E G. pose proof (reach_J known g _ _ R U) as HJ. unfold J in HJ. cbn [fst snd] in HJ.
  assert (C : (1 <= cnt (of_g g) KPrepare s D)%nat).
  { unfold cnt. cbn [d_of]. rewrite E. cbn [map]. rewrite count_cons. unfold of_g at 2. fold (origin_g d). rewrite G, Z.eqb_refl. cbn [one]. lia. }
  destruct (find_tx g s) as [x|]; [exists x; split; auto|]; unfold Jst in HJ; cbn [option_map] in HJ; [destruct (x_stage x); auto; lia|lia].
Qed.

Theorem reach_stable g tr c : reach tr c -> undisturbed g tr -> honest tr -> K g tr (fst (fst c)) /\ Pairs g tr.
Proof.
  induction 1 as [|tr c e c' R IH U|tr s D tk l n R IH]; intros UN HO.
  - split; [intros a|intros a k1 c1 t1 r1 f1 b k2 c2 t2 r2 f2 rest E]; [intros k c t r fl b E|]; destruct a; discriminate.
  - pose proof (undisturbed_prefix _ _ _ UN) as UP. pose proof (honest_prefix _ _ HO) as HOP. destruct (IH UP HOP) as [HK HPR]. clear IH.
    pose proof (reach_V _ _ _ R) as HV. pose proof (reach_P _ _ _ R) as HP. pose proof (reach_BM _ _ _ R) as HB. pose proof (reach_J known g _ _ R UP) as HJ. destruct U; cbn [fst snd] in *.
    + assert (NA : no_asks g [Recv i]) by (apply no_asks_cons; [discriminate|apply no_asks_nil]). split; [|apply Pairs_keep; auto]. apply (stable_stage g tr s); [exact NA| |exact HK].
    { eauto. }
    + assert (NA : no_asks g [Recv i]) by (apply no_asks_cons; [discriminate|apply no_asks_nil]). split; [|apply Pairs_keep; auto]. apply (stable_stage g tr s); [exact NA| |exact HK]. intros x F. apply stage_touch. auto.
    + split; [|apply Pairs_keep; auto using no_asks_nil]. apply (stable_stage g tr s); [apply no_asks_nil| |exact HK]. intros x F. apply stage_touch. auto.
    + split; [|apply Pairs_keep; auto using no_asks_nil]. apply (stable_stage g tr s); [apply no_asks_nil| |exact HK]. intros y F.
      rewrite (find_upd _ x); auto. cbn [set_branches x_g]. destruct (Z.eqb_spec (x_g x) g) as [<-|]; eauto. rewrite H0 in F. injection F as <-. eauto.
    + split; [|apply Pairs_keep; auto using no_asks_nil]. apply (stable_stage g tr s); [apply no_asks_nil| |exact HK]. intros y F. exists y. rewrite find_snoc, F. auto.
    + assert (NA : no_asks g [Act a]) by (apply no_asks_cons; [intros k c t r fl E; injection E as ->; discriminate|apply no_asks_nil]). split; [|apply Pairs_keep; auto]. apply (stable_stage g tr s); [exact NA| |exact HK].
    { eauto. }
    + assert (NA : no_asks g [Act (Answer a)]) by (apply no_asks_cons; [discriminate|apply no_asks_nil]). split; [|apply Pairs_keep; auto]. apply (stable_stage g tr s); [exact NA| |exact HK].
    { eauto. }
    + assert (NA : no_asks g [Act (Answer a)]) by (apply no_asks_cons; [discriminate|apply no_asks_nil]). split.
      * eapply (K_removed g g0 tr s s s' a' [Act (Answer a)]); eauto.
      * apply Pairs_keep; auto. apply no_asks_cons; [discriminate|eapply no_asks_remove; eauto].
    + destruct (start_facts k fl _ cb _ s3 ps a f ds (V_upd (set_stage st x) _ HV) H1 H2) as (_&E3&->&_).
      pose proof (find_tx_g _ _ _ H0) as G.
      assert (FT : forall h, find_tx h (w_fan k f s3) = if t_g (c_origin cb) =? h then Some (set_stage st x) else find_tx h s).
      { intros h. rewrite (find_txs h s3) by apply txs_w. rewrite E3. rewrite (find_txs h (upd_tx (set_stage st x) s)) by auto.
        rewrite (find_upd _ x); [cbn [set_stage x_g]; rewrite G; auto|]. cbn [set_stage x_g]. rewrite G. auto. }
      apply (K_asks g (t_g (c_origin cb)) tr s _ k fl _ _ (set_stage st x)); auto.
      * intros t r I. apply in_targets in I as (b&B1&<-&_). destruct (HB x b (in_txs_find _ _ _ H0) B1) as [_ E]. rewrite E. auto.
      * intros ->. rewrite FT, Z.eqb_refl. unfold J in HJ. cbn [fst snd] in HJ. rewrite H0 in HJ. unfold Jst in HJ. cbn [option_map] in HJ.
        assert (Q : x_stage x <> Commit /\ x_stage x <> Rollback /\ stk k (x_stage (set_stage st x)) /\ x_stage (set_stage st x) <> Involved).
        { destruct H as [_ S]. destruct tk as [|i|d0].
          - exfalso. destruct S as (t&pid&->&_&_&_&(i&I&M)&EP&IE). destruct UP as (_&UP&_). apply (UP _ _ _ IE I M); auto.
          - destruct i; try tauto.
            + destruct S as (->&S1&S2). cbn [set_stage x_stage]. rewrite S1. destruct S2 as [(->&->&->&_)|(->&->&->&_)]; cbn; auto; repeat split; discriminate.
            + destruct S as (->&_). cbn [c_origin] in *. exfalso. destruct (reach_token _ _ _ R _ eq_refl) as (pre&->). destruct UP as (UP&_). eapply UP; eauto. apply in_app_iff. right. left. reflexivity.
            + destruct S as (->&S1&->&->&->). cbn [set_stage x_stage]. rewrite S1. cbn. repeat split; discriminate.
            + destruct S as (->&_&S2). cbn [set_stage x_stage]. destruct S2 as [(S1&->&->&->)|(S1&->&->&->)]; rewrite S1; cbn; repeat split; discriminate.
            + destruct S as (->&->&->&->&S1). cbn [set_stage x_stage]. destruct S1 as [S1|S1]; rewrite S1; cbn; repeat split; discriminate.
          - tauto. }
        destruct Q as (Q1&Q2&Q3&Q4). split; [|auto]. intros y F. rewrite H0 in F. injection F as <-. auto.
      * intros N. rewrite FT. destruct (Z.eqb_spec (t_g (c_origin cb)) g); [congruence|auto].
    + assert (NA : no_asks g [ev]) by (apply no_asks_cons; [destruct H; discriminate|apply no_asks_nil]). split; [|apply Pairs_keep; auto]. apply (stable_stage g tr s); [exact NA| |exact HK].
      intros x F. exists x. rewrite (find_txs g s) by apply txs_w. auto.
    + assert (NA : no_asks g [Act (Answer (create_reply (d_call d) Commit (accumulate KCommit (votes d) (d_out d) (c_code (d_call d)))))]) by (apply no_asks_cons; [discriminate|apply no_asks_nil]). split.
      * match goal with |- K g (tr ++ ?x :: _) _ => apply (K_removed g (origin_g d) tr s s s' a' [x]) end; auto.
      * apply Pairs_keep; auto. apply no_asks_cons; [discriminate|eapply no_asks_remove; eauto].
    + assert (NA : no_asks g [Act (Answer (create_reply (d_call d) Rollback (accumulate KRollback (votes d) (d_out d) (c_code (d_call d)))))]) by (apply no_asks_cons; [discriminate|apply no_asks_nil]). split.
      * match goal with |- K g (tr ++ ?x :: _) _ => apply (K_removed g (origin_g d) tr s s s' a' [x]) end; auto.
      * apply Pairs_keep; auto. apply no_asks_cons; [discriminate|eapply no_asks_remove; eauto].
    + split.
      * apply (K_removed g (origin_g d) tr s s s' a' []); auto using no_asks_nil.
      * apply Pairs_keep; auto. eapply no_asks_remove; eauto.
    + split; [|apply Pairs_keep; auto using no_asks_nil]. apply (stable_stage g tr s); [apply no_asks_nil| |exact HK].
    { eauto. }
+ split; [|apply Pairs_keep; auto using no_asks_nil]. apply (stable_stage g tr s); [apply no_asks_nil| |exact HK].
    { eauto. }
+ assert (NA : no_asks g [Act (Answer (create_reply (d_call d) Commit (code_of d)))]) by (apply no_asks_cons; [discriminate|apply no_asks_nil]).
      pose proof (find_tx_g _ _ _ H0) as G. split.
      * match goal with |- K g (tr ++ ?y :: _) _ => apply (K_removed g (origin_g d) tr s (upd_tx (voted d x) s) s' a' [y]) end; auto using V_upd.
        rewrite (find_upd _ x); cbn [voted set_branches set_stage x_g]; rewrite G; auto.
        destruct (Z.eqb_spec (origin_g d) g) as [<-|]; auto. right. split; auto. discriminate.
      * apply Pairs_keep; auto. apply no_asks_cons; [discriminate|eapply no_asks_remove; eauto].
    + assert (NA : no_asks g [Act (Logged (origin_g d) (rows (voted d x)))]) by (apply no_asks_cons; [discriminate|apply no_asks_nil]).
      pose proof (find_tx_g _ _ _ H0) as G. split; [|apply Pairs_keep; auto]. apply (K_keep g tr s); [exact NA| |exact HK]. right. intros y k F S.
      change (find_tx g (w_replies (s_replies s ++ [create_reply (d_call d) Prepare (code_of d)]) (w_log l (upd_tx (voted d x) s)))) with (find_tx g (upd_tx (voted d x) s)).
      rewrite (find_upd _ x); cbn [voted set_branches set_stage x_g]; rewrite G; auto. destruct (Z.eqb_spec (origin_g d) g) as [EG|]; [|exists y; auto].
      destruct (vote_from_prepare g _ _ _ _ _ R UP H EG) as (x0&F0&S0). rewrite F in F0. injection F0 as <-. rewrite S0 in S.
      exists (voted d x). split; auto. assert (x = y) as -> by congruence. rewrite stage_voted_prepare; auto. destruct k; cbn [stk] in *; discriminate.
    + assert (NA : no_asks g [Act (Logged (origin_g d) (rows (voted d x)))]) by (apply no_asks_cons; [discriminate|apply no_asks_nil]).
      set (s1 := match c_reply (d_call d) with UserCommit => _ | _ => _ end). 
      assert (ET : find_tx g s1 = find_tx g (upd_tx (voted d x) s)) by (subst s1; destruct (c_reply (d_call d)); auto).
      pose proof (find_tx_g _ _ _ H0) as G. split; [|apply Pairs_keep; auto]. apply (K_keep g tr s); [exact NA| |exact HK]. right. intros y k F S. rewrite ET.
      rewrite (find_upd _ x); cbn [voted set_branches set_stage x_g]; rewrite G; auto. destruct (Z.eqb_spec (origin_g d) g) as [EG|]; [|exists y; auto].
      destruct (vote_from_prepare g _ _ _ _ _ R UP H EG) as (x0&F0&S0). rewrite F in F0. injection F0 as <-. rewrite S0 in S.
      exists (voted d x). split; auto. assert (x = y) as -> by congruence. rewrite stage_voted_prepare; auto. destruct k; cbn [stk] in *; discriminate.
    + assert (NA : no_asks g (Act (Persisted (s_log s)) :: map (fun a => Act (Answer a)) (s_replies s))).
      { apply no_asks_cons; [discriminate|]. intros k c t r fl I. apply in_map_iff in I as (y&E&_). discriminate. }
      split; [|apply Pairs_keep; auto]. apply (stable_stage g tr s); [exact NA| |exact HK].
    { eauto. }
    + destruct (p_t _ _ _ HP d eq_refl) as (PV&_). pose proof (find_tx_g _ _ _ H) as G.
      destruct (start_facts KCommit false _ _ _ s3 ps a f ds (V_upd (set_stage Commit x) _ HV) H2 H3) as (_&E3&->&_).
      assert (FT : forall h, find_tx h (w_c f s3) = if origin_g d =? h then Some (set_stage Commit x) else find_tx h s).
      { intros h. rewrite E3. change (find_tx h (w_c f (w_next (s_next (upd_tx (set_stage Commit x) s) + Z.of_nat (length (map vote_target (active_of d)))) (upd_tx (set_stage Commit x) s)))) with (find_tx h (upd_tx (set_stage Commit x) s)).
        rewrite (find_upd _ x); [cbn [set_stage x_g]; rewrite G; auto|]. cbn [set_stage x_g]. rewrite G. auto. }
      apply (K_asks g (origin_g d) tr s _ KCommit false _ _ (set_stage Commit x)); auto.
      * intros t r I. apply (active_g tr d t r); auto.
      * intros ->. rewrite FT, Z.eqb_refl. unfold J in HJ. cbn [fst snd dec] in HJ. rewrite H, Z.eqb_refl in HJ. unfold Jst in HJ. cbn [option_map one] in HJ.
        assert (SX : x_stage x = PostPrepare) by (destruct (x_stage x); auto; lia). rewrite stage_set by (rewrite SX; reflexivity). cbn [stk].
        split; [|repeat split; discriminate]. intros y F. rewrite H in F. injection F as <-. rewrite SX. split; discriminate.
      * intros N. rewrite FT. destruct (Z.eqb_spec (origin_g d) g); [congruence|auto].
    + assert (NA : no_asks g [Act (Answer (create_reply (d_call d) Prepare (code_of d)))]) by (apply no_asks_cons; [discriminate|apply no_asks_nil]).
      pose proof (find_tx_g _ _ _ H0) as G. split; [|apply Pairs_keep; auto]. apply (K_keep g tr s); [exact NA| |exact HK]. right. intros y k F S.
      rewrite (find_upd _ x); cbn [voted set_branches set_stage x_g]; rewrite G; auto. destruct (Z.eqb_spec (origin_g d) g) as [EG|]; [|exists y; auto].
      destruct (vote_from_prepare g _ _ _ _ _ R UP H EG) as (x0&F0&S0). rewrite F in F0. injection F0 as <-. rewrite S0 in S.
      exists (voted d x). split; auto. assert (x = y) as -> by congruence. rewrite stage_voted_prepare; auto. destruct k; cbn [stk] in *; discriminate.
    + assert (PV : prov_d known tr KPrepare d) by (apply (p_d _ _ _ HP KPrepare); cbn [fst snd d_of]; rewrite H; left; auto). pose proof (find_tx_g _ _ _ H0) as G.
      destruct (start_facts KRollback false _ _ _ s3 ps a f ds (V_upd (set_stage Rollback (voted d x)) _ (V_upd (voted d x) _ HV)) H4 H5) as (_&E3&->&_).
      assert (FT : forall h, find_tx h (w_r f s3) = if origin_g d =? h then Some (set_stage Rollback (voted d x)) else find_tx h s).
      { intros h. rewrite E3. match goal with |- find_tx h (w_r f (w_next ?n ?z)) = _ => change (find_tx h (w_r f (w_next n z))) with (find_tx h z) end.
        rewrite (find_upd _ (voted d x)); cbn [set_stage voted set_branches x_g]; rewrite G.
        - destruct (origin_g d =? h) eqn:EG; auto. rewrite (find_upd _ x); cbn [set_stage voted set_branches x_g]; rewrite G; [rewrite EG; auto|auto].
        - rewrite (find_upd _ x); cbn [set_stage voted set_branches x_g]; rewrite G; [rewrite Z.eqb_refl; auto|auto]. }
      apply (K_asks g (origin_g d) tr s _ KRollback false _ _ (set_stage Rollback (voted d x))); auto.
      * intros t r0 I. apply (active_g tr d t r0); auto.
      * intros ->. rewrite FT, Z.eqb_refl. destruct (vote_from_prepare _ _ _ _ _ _ R UP H eq_refl) as (x0&F0&S0). rewrite H0 in F0. injection F0 as <-.
        rewrite stage_aborted by auto. cbn [stk]. split; [|repeat split; discriminate]. intros y F. rewrite H0 in F. injection F as <-. rewrite S0. split; discriminate.
      * intros N. rewrite FT. destruct (Z.eqb_spec (origin_g d) g); [congruence|auto].
  - destruct (IH UN HO) as [A B]. split; auto.
Qed.

End Stable.

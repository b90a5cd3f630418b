(* Where every request to a resource, and every answer, comes from. *)
From Coq Require Import ZArith List Bool Lia Permutation.
From Verif Require Import CodesModel FanModel FanSpec FanProofs FanTrack TmModel TmSpec TmMicro TmFacts.
From Verif Require GroupModel GroupProofs.
Import ListNotations.
Local Open Scope Z_scope.

Section Prov.
Variable known : list Z.
Notation reach := (reach known).
Notation takes_part := (takes_part known).

(* [ts] are some (all) of the resources that take part *)
Definition within (pre : list event) (g : Z) (ts : list (trid * Z)) : Prop := forall t r, In (t, r) ts -> t_g t = g /\ takes_part pre g (t_b t) r.
Definition covers (pre : list event) (g : Z) (ts : list (trid * Z)) : Prop :=
  within pre g ts /\ forall b r, takes_part pre g b r -> exists t, In (t, r) ts /\ t_b t = b.

(* requests that start a vote, or the one-phase commit *)
Definition asks_start (i : input) (k : kind) (fl : bool) (cb : call) (n : nat) : Prop :=
  match i with
  | ICommit p corr t rs => cb = mk_c UserCommit t (user_dest p corr) read_only /\ ((k = KCommit /\ fl = true /\ n = 1%nat) \/ (k = KPrepare /\ fl = false /\ (1 < n)%nat))
  | IExtPrepare p corr t r => cb = mk_c ResPrepare t (mk_d p corr r) read_only /\ k = KPrepare /\ fl = false
  | IExtCommit p corr t r => cb = mk_c ResCommit t (mk_d p corr r) read_only /\ k = KPrepare /\ fl = false
  | _ => False
  end.
Definition asks_back (pre : list event) (cb : call) : Prop :=
  (exists pre0 p corr t rs, pre = pre0 ++ [Recv (IRollback p corr t rs)] /\ cb = mk_c UserRollback t (user_dest p corr) read_only) \/
  (exists pre0 p corr t r, pre = pre0 ++ [Recv (IExtRollback p corr t r)] /\ cb = mk_c ResRollback t (mk_d p corr r) read_only) \/
  (exists t, cb = mk_c UserRollback t (user_dest self 0) read_only /\ mentioned pre t /\ In (Recv (IExit (t_own t))) pre).

(* the round with targets [ts] is over, for the first time, at the end of [post], with [d] *)
Definition ended (k : kind) (ts : list (trid * Z)) (c : Z) (post : list event) (d : firing) : Prop :=
  (d_out d, d_recv d) = follow (begin (reqs c ts)) (ops k post) /\ done (d_out d) = true /\
  (forall post0 ev, post = post0 ++ [ev] -> done (fst (follow (begin (M:=vote) (reqs c ts)) (ops k post0))) = false).

Definition no_recv (l : list event) : Prop := forall i, ~ In (Recv i) l.

Inductive round : list event -> kind -> bool -> list (trid * Z) -> call -> Prop :=
| rd_ask pre0 i k fl ts cb : asks_start i k fl cb (length ts) -> covers (pre0 ++ [Recv i]) (t_g (c_origin cb)) ts -> round (pre0 ++ [Recv i]) k fl ts cb
| rd_ext pre0 p corr t r ts : within (pre0 ++ [Recv (IExtCommit p corr t r)]) (t_g t) ts ->
    round (pre0 ++ [Recv (IExtCommit p corr t r)]) KCommit false ts (mk_c ResCommit t (mk_d p corr r) read_only)
| rd_back pre ts cb : asks_back pre cb -> within pre (t_g (c_origin cb)) ts -> round pre KRollback false ts cb
| rd_commit pre1 fl1 ts1 c1 post1 post2 d : round pre1 KPrepare fl1 ts1 (d_call d) -> ended KPrepare ts1 c1 post1 d -> no_recv post2 ->
    code_of d = xa_ok -> c_reply (d_call d) <> ResPrepare ->
    round (pre1 ++ map Act (asked KPrepare fl1 c1 ts1) ++ post1 ++ post2) KCommit false (map vote_target (active_of d))
          (mk_c (c_reply (d_call d)) (c_origin (d_call d)) (c_dest (d_call d)) xa_ok)
| rd_abort pre1 fl1 ts1 c1 post1 post2 d : round pre1 KPrepare fl1 ts1 (d_call d) -> ended KPrepare ts1 c1 post1 d -> no_recv post2 ->
    code_of d <> read_only -> code_of d <> xa_ok -> c_reply (d_call d) <> ResPrepare ->
    round (pre1 ++ map Act (asked KPrepare fl1 c1 ts1) ++ post1 ++ post2) KRollback false (map vote_target (active_of d))
          (mk_c (c_reply (d_call d)) (c_origin (d_call d)) (c_dest (d_call d)) (code_of d)).

Definition prov_e (tr : list event) (k : kind) (e : entry vote call) : Prop :=
  exists pre fl ts c post, tr = pre ++ map Act (asked k fl c ts) ++ post /\ round pre k fl ts (e_call e) /\
                           state_of e = follow (begin (reqs c ts)) (ops k post).
Definition prov_d (tr : list event) (k : kind) (d : firing) : Prop :=
  exists pre fl ts c post1 post2, tr = pre ++ map Act (asked k fl c ts) ++ post1 ++ post2 /\ round pre k fl ts (d_call d) /\
                                  ended k ts c post1 d /\ no_recv post2.

Record P (tr : list event) (c : cfg) : Prop := mk_P {
  p_e : forall k e, In e (f_entries (fan_of k (fst (fst c)))) -> prov_e tr k e;
  p_d : forall k d, In d (d_of k (snd (fst c))) -> prov_d tr k d;
  p_t : forall d, snd c = Decided d -> prov_d tr KPrepare d /\ code_of d = xa_ok /\ c_reply (d_call d) <> ResPrepare
}.

Lemma prov_e_app tr e k x : ops k e = [] -> prov_e tr k x -> prov_e (tr ++ e) k x.
Proof.
  intros O (pre&fl&ts&c&post&->&R&S). exists pre, fl, ts, c, (post ++ e). split; [rewrite <- !app_assoc; auto|]. split; auto.
  rewrite ops_app, O, app_nil_r. auto.
Qed.
Lemma prov_d_app tr e k x : no_recv e -> prov_d tr k x -> prov_d (tr ++ e) k x.
Proof.
  intros O (pre&fl&ts&c&post1&post2&->&R&S&N). exists pre, fl, ts, c, post1, (post2 ++ e). split; [rewrite <- !app_assoc; auto|]. split; auto. split; auto.
  intros i I. apply in_app_iff in I as [I|I]; [apply (N i); auto|apply (O i); auto].
Qed.
Lemma no_recv_acts l : no_recv (map Act l). Proof. intros i I. apply in_map_iff in I as (a&E&_). discriminate. Qed.

(* the fans, and what is to be done, stay or shrink *)
Lemma P_keep tr e s s' D D' tk tk' : (forall k, ops k e = []) -> ((forall k, d_of k D = []) /\ (forall d, tk <> Decided d) \/ no_recv e) ->
  (forall k, fan_of k s' = fan_of k s) -> (forall k d, In d (d_of k D') -> In d (d_of k D)) ->
  (forall d, tk' = Decided d -> tk = Decided d) -> P tr (s, D, tk) -> P (tr ++ e) (s', D', tk').
Proof.
  intros O N F DD T [P1 P2 P3]. cbn [fst snd] in *. split; cbn [fst snd].
  - intros k x X. rewrite F in X. apply prov_e_app; auto.
  - intros k d X. apply DD in X. destruct N as [[N _]|N]; [rewrite N in X; destruct X|]. apply prov_d_app; auto.
  - intros d E. apply T in E. destruct N as [[_ N]|N]; [exfalso; eapply N; eauto|]. destruct (P3 d E) as [A B]. split; auto. apply prov_d_app; auto.
Qed.

Lemma ops_remove k g s s' a : remove_tx g s = (s', a) -> ops k (map Act a) = [].
Proof. unfold remove_tx. destruct (find_tx g _); intros H; injection H as <- <-; auto. Qed.
Lemma fan_remove g s s' a : remove_tx g s = (s', a) -> forall k, fan_of k s' = fan_of k s.
Proof. unfold remove_tx. destruct (find_tx g _); intros H; injection H as <- <-; auto. Qed.
Lemma no_recv_cons a l : no_recv l -> no_recv (Act a :: l).
Proof. intros N i [H|H]; [discriminate|eapply N; eauto]. Qed.

Lemma in_w_d k k' d r D x : d_of k D = d :: r -> In x (d_of k' (w_d k r D)) -> In x (d_of k' D).
Proof. intros E. rewrite d_w. destruct (kind_eqb k k') eqn:K; auto. apply kind_eqb_eq in K. subst. rewrite E. simpl. auto. Qed.

(* a new round *)
Lemma P_start tr k fl ts cb s s3 ps a f ds D D' tk : V s -> P tr (s, D, tk) -> round tr k fl ts cb ->
  ask k fl ts s = (s3, ps, a) -> fan_start ps cb (fan_of k s3) = (f, ds) ->
  (forall k' d, In d (d_of k' D') -> In d (d_of k' D) \/ (k' = k /\ In d ds)) -> P (tr ++ map Act a) (w_fan k f s3, D', Idle).
Proof.
  intros HV [P1 P2 P3] R A F DD. cbn [fst snd] in *. destruct (start_facts k fl ts cb s s3 ps a f ds HV A F) as (_&->&->&S). cbv zeta in S.
  split; cbn [fst snd]; [| |discriminate].
  - intros k' e E. rewrite fan_w in E. destruct (kind_eqb k k') eqn:K.
    + apply kind_eqb_eq in K. subst k'.
      assert (X : In e (f_entries (fan_of k s)) \/ e = mk_e (f_next (fan_of k s)) (fst (begin (M:=vote) (reqs (s_next s) ts))) [] cb).
      { destruct (done _); destruct S as [-> _] in E; auto. apply in_app_iff in E as [E|[E|[]]]; auto. }
      destruct X as [X | ->].
      * apply prov_e_app; [apply ops_asked|auto].
      * exists tr, fl, ts, (s_next s), []. rewrite app_nil_r. split; auto.
    + apply prov_e_app; [apply ops_asked|]. apply P1. destruct k'; exact E.
  - intros k' d I. apply DD in I as [I|[-> I]].
    + apply prov_d_app; auto. apply no_recv_acts.
    + exists tr, fl, ts, (s_next s), [], []. rewrite !app_nil_r. split; auto.
      destruct (done (fst (begin (reqs (s_next s) ts)))) eqn:DN; destruct S as [_ ->]; [|destruct I]. destruct I as [<-|[]].
      split; auto. split; [|intros i []]. split; [reflexivity|]. split; auto. intros post0 ev E. destruct post0; discriminate.
Qed.

Lemma covers_of tr s x g : BM tr s -> Book known tr s -> find_tx g s = Some x -> x_stage x = Involved -> covers tr g (targets (x_branches x)).
Proof.
  intros HB B F S. pose proof (find_tx_g _ _ _ F) as G. specialize (B g). rewrite F in B. destruct B as [B1 B2]. split.
  - intros t r I. split; auto. apply in_targets in I as (b&I&<-&_). rewrite <- G. apply (HB x b); auto. eapply in_txs_find; eauto.
  - auto.
Qed.
Lemma within_of tr s x g : BM tr s -> Book known tr s -> find_tx g s = Some x -> within tr g (targets (x_branches x)).
Proof.
  intros HB B F. pose proof (find_tx_g _ _ _ F) as G. specialize (B g). rewrite F in B. destruct B as [B1 B2].
  intros t r I. split; auto. apply in_targets in I as (b&I&<-&_). rewrite <- G. apply (HB x b); auto. eapply in_txs_find; eauto.
Qed.

Lemma round_of_start tr s D tk x k fl st cb : reach tr (s, D, tk) -> starting tr x k fl st cb tk -> find_tx (t_g (c_origin cb)) s = Some x ->
  round tr k fl (targets (x_branches x)) cb.
Proof.
  intros R [CB S] F. pose proof (reach_BM _ _ _ R) as HB. pose proof (reach_Book _ _ _ R) as B. cbn [fst] in *.
  destruct tk as [|i|d]; [| |destruct S].
  - destruct S as (t&pid&->&->&->&->&M&<-&X). apply rd_back; [right; right; exists t; auto|]. eapply within_of; eauto.
  - destruct (reach_token _ _ _ R i eq_refl) as (pre0&->). destruct i; try (destruct S; fail).
    + destruct S as (->&SI&S). apply rd_ask; [|eapply covers_of; eauto]. simpl. split; auto. destruct S as [(->&->&_&L)|(->&->&_&L)]; auto.
    + destruct S as (->&->&->&->). apply rd_back; [left; eauto 10|]. eapply within_of; eauto.
    + destruct S as (->&SI&->&->&->). apply rd_ask; [simpl; auto|]. eapply covers_of; eauto.
    + destruct S as (->&_&[(_&->&->&->)|(SI&->&->&->)]).
      * apply rd_ext. eapply within_of in F; eauto.
      * apply rd_ask; [simpl; auto|]. eapply covers_of; eauto.
    + destruct S as (->&->&->&->&_). apply rd_back; [right; left; eauto 10|]. eapply within_of; eauto.
Qed.

Lemma passive_ops k i : passive i = true -> ops k [Recv i] = [].
Proof. destruct i; auto; discriminate. Qed.
Lemma mentions_ops k i t : mentions i t -> ops k [Recv i] = [].
Proof. destruct i; simpl; auto; tauto. Qed.
Lemma no_recv_one a : no_recv [Act a]. Proof. intros i [H|[]]. discriminate. Qed.
Lemma no_recv_nil : no_recv []. Proof. intros i []. Qed.

Lemma reach_P tr c : reach tr c -> P tr c.
Proof.
  induction 1 as [|tr c e c' R IH U|tr s D tk l n R IH].
  - split; cbn; [destruct k; intros e []|destruct k; intros d []|discriminate].
  - pose proof (reach_V _ _ _ R) as HV. destruct U; cbn [fst] in *.
    + apply (P_keep _ _ s s D0 D0 Idle); auto.
      * intros k. apply passive_ops; auto.
      * left. split; [destruct k; auto|discriminate].
      * unfold tok_of. intros d E. destruct (request_of i); discriminate.
    + apply (P_keep _ _ s _ D0 D0 Idle); auto.
      * intros k. destruct H as [H _]. eapply mentions_ops; eauto.
      * left. split; [destruct k; auto|discriminate].
      * intros k. unfold touch. destruct (find_tx _ _); destruct k; auto.
      * unfold tok_of. intros d E. destruct (request_of i); discriminate.
    + apply (P_keep _ _ s _ D D tk); auto using no_recv_nil. intros k. unfold touch. destruct (find_tx _ _); destruct k; auto.
    + apply (P_keep _ _ s _ D D tk); auto using no_recv_nil.
    + apply (P_keep _ _ s _ D D tk); auto using no_recv_nil.
    + apply (P_keep _ _ s _ D D Idle); auto using no_recv_one. intros k. destruct a; try discriminate; auto.
    + apply (P_keep _ _ s _ D D (Req i)); auto using no_recv_one; try discriminate. 
    + apply (P_keep _ _ s _ D D (Req i)); auto; try discriminate.
      * intros k. apply (ops_remove k) in H3. exact H3.
      * right. apply no_recv_cons, no_recv_acts.
      * eapply fan_remove; eauto.
    + eapply (P_start tr k fl _ cb (upd_tx (set_stage st x) s) s3 ps a f ds D); [apply V_upd; auto| |eapply round_of_start; eauto|eauto|eauto|].
      * assert (Q : P (tr ++ []) (upd_tx (set_stage st x) s, D, tk)) by (apply (P_keep tr [] s _ D D tk tk); auto using no_recv_nil). rewrite app_nil_r in Q. exact Q.
      * intros k' d I. rewrite d_w in I. destruct (kind_eqb k k') eqn:K; auto. apply kind_eqb_eq in K. subst. apply in_app_iff in I as [I|I]; auto.
    + destruct IH as [P1 P2 P3]. cbn [fst snd] in *. pose proof (fan_after _ _ _ _ (v_fan _ HV k) (track_event_op _ _ _ H) H0) as (F1&F2&F3).
      assert (OT : forall k', ops k' [ev] = if kind_eqb k k' then [o] else []) by (intros; eapply ops_track; eauto).
      split; cbn [fst snd]; [| |discriminate].
      * intros k' e E. rewrite fan_w in E. destruct (kind_eqb k k') eqn:K.
        -- apply kind_eqb_eq in K. subst k'. rewrite F2 in E. apply filter_In in E as [E _]. apply in_map_iff in E as (e0&<-&E).
           destruct (P1 k e0 E) as (pre&fl&ts&c&post&->&RD&ST). exists pre, fl, ts, c, (post ++ [ev]). split; [rewrite <- !app_assoc; auto|]. split; auto.
           rewrite ops_app, (OT k), kind_eqb_refl, follow_app, <- ST. cbn [follow fold_left]. unfold state_of, after_op. cbn [e_pend e_recv]. destruct (track _ o); auto.
        -- apply prov_e_app; auto. rewrite OT, K. auto.
      * intros k' d I. rewrite d_w in I. destruct (kind_eqb k k') eqn:K; [|destruct k'; destruct I]. apply kind_eqb_eq in K. subst k'.
        rewrite F3 in I. apply in_map_iff in I as (e'&<-&E). apply filter_In in E as [E DN]. apply in_map_iff in E as (e0&<-&E).
        destruct (P1 k e0 E) as (pre&fl&ts&c&post&->&RD&ST). exists pre, fl, ts, c, (post ++ [ev]), []. split; [rewrite <- !app_assoc, ?app_nil_r; auto|].
        split; auto. split; [|apply no_recv_nil]. split; [|split; [exact DN|]].
        -- rewrite ops_app, (OT k), kind_eqb_refl, follow_app, <- ST. cbn [follow fold_left]. unfold fire, after_op. cbn [d_out d_recv e_pend e_recv]. destruct (track _ o); auto.
        -- intros post0 ev0 EV. apply app_inj_tail in EV as [<- _]. rewrite <- ST. cbn [state_of fst]. apply (fi_open _ (v_fan _ HV k)). auto.
    + apply (P_keep _ _ s _ D _ Idle); auto.
      * intros k. apply (ops_remove k) in H0. exact H0.
      * right. apply no_recv_cons, no_recv_acts.
      * eapply fan_remove; eauto.
      * intros k x. apply (in_w_d KCommit k d r D). auto.
    + apply (P_keep _ _ s _ D _ Idle); auto.
      * intros k. apply (ops_remove k) in H1. exact H1.
      * right. apply no_recv_cons, no_recv_acts.
      * eapply fan_remove; eauto.
      * intros k x. apply (in_w_d KRollback k d r D). auto.
    + apply (P_keep _ _ s _ D _ Idle); auto.
      * intros k. apply (ops_remove k) in H1. exact H1.
      * right. apply no_recv_acts.
      * eapply fan_remove; eauto.
      * intros k x. apply (in_w_d KRollback k d r D). auto.
    + apply (P_keep _ _ s _ D _ Idle); auto using no_recv_nil. intros k x. apply (in_w_d KRollback k d r D). auto.
    + apply (P_keep _ _ s _ D _ Idle); auto using no_recv_nil. intros k x. apply (in_w_d KPrepare k d r D). auto.
    + apply (P_keep _ _ s _ D _ Idle); auto.
      * intros k. apply (ops_remove k) in H2. exact H2.
      * right. apply no_recv_cons, no_recv_acts.
      * intros k. apply (fan_remove _ _ _ _ H2 k).
      * intros k y. apply (in_w_d KPrepare k d r D). auto.
    + apply (P_keep _ _ s _ D _ Idle); auto using no_recv_one. intros k y. apply (in_w_d KPrepare k d r D). auto.
    + assert (Q : prov_d tr KPrepare d) by (apply (p_d _ _ IH KPrepare); cbn [fst snd d_of]; rewrite H; left; auto).
      assert (Q2 : P (tr ++ [Act (Logged (origin_g d) (rows (voted d x)))]) (match c_reply (d_call d) with UserCommit => w_replies (s_replies s ++ [create_reply (d_call d) Prepare (code_of d)]) (w_log l (upd_tx (voted d x) s)) | _ => w_log l (upd_tx (voted d x) s) end, w_d KPrepare r D, Idle)).
      { apply (P_keep _ _ s _ D _ Idle); auto using no_recv_one.
        - intros k. destruct (c_reply (d_call d)); auto.
        - intros k y. apply (in_w_d KPrepare k d r D). auto. }
      destruct Q2 as [Q2 Q3 _]. split; auto. cbn [snd]. intros d' E. injection E as <-. split; [|auto]. apply prov_d_app; auto. apply no_recv_one.
    + apply (P_keep _ _ s _ D D tk); auto.
      * intros k. change (Act (Persisted (s_log s)) :: map (fun a => Act (Answer a)) (s_replies s)) with ([Act (Persisted (s_log s))] ++ map (fun a => Act (Answer a)) (s_replies s)).
        rewrite ops_app, <- (map_map Answer Act), ops_acts; auto. intros a I. apply in_map_iff in I as (a0&<-&_). auto.
      * right. apply no_recv_cons. intros i I. apply in_map_iff in I as (a&E&_). discriminate.
    + destruct (p_t _ _ IH d eq_refl) as ((pre&fl&ts&c&post1&post2&E&RD&EN&NR)&CO&CR).
      eapply (P_start tr KCommit false _ _ (upd_tx (set_stage Commit x) s) s3 ps a f ds D _ (Decided d)); [apply V_upd; auto| | |eauto|exact H3|].
      * assert (Q : P (tr ++ []) (upd_tx (set_stage Commit x) s, D, Decided d)) by (apply (P_keep tr [] s _ D D (Decided d)); auto using no_recv_nil). rewrite app_nil_r in Q. exact Q.
      * rewrite E. apply rd_commit; auto.
      * intros k' y I. rewrite d_w in I. destruct (kind_eqb KCommit k') eqn:K; auto. apply kind_eqb_eq in K. subst. apply in_app_iff in I as [I|I]; auto.
    + apply (P_keep _ _ s _ D _ Idle); auto using no_recv_one. intros k y. apply (in_w_d KPrepare k d r D). auto.
    + assert (Q : prov_d tr KPrepare d) by (apply (p_d _ _ IH KPrepare); cbn [fst snd d_of]; rewrite H; left; auto).
      destruct Q as (pre&fl&ts&c&post1&post2&E&RD&EN&NR).
      eapply (P_start tr KRollback false _ _ (upd_tx (set_stage Rollback (voted d x)) (upd_tx (voted d x) s)) s3 ps a f ds D _ Idle); [apply V_upd, V_upd; auto| | |eauto|exact H5|].
      * assert (Q : P (tr ++ []) (upd_tx (set_stage Rollback (voted d x)) (upd_tx (voted d x) s), D, Idle)) by (apply (P_keep tr [] s _ D D Idle); auto using no_recv_nil).
        rewrite app_nil_r in Q. exact Q.
      * rewrite E. apply rd_abort; auto.
      * intros k' y I. destruct k'; cbn [d_of td_p td_c td_r] in I; [left; cbn [d_of]; rewrite H; right; auto|auto|apply in_app_iff in I as [I|I]; auto].
  - destruct IH as [P1 P2 P3]. split; auto.
Qed.

(* ------------------------------------------------------------ every request to a resource belongs to a round *)
Definition belongs (q : list event) (k : kind) (c : Z) (t : trid) (r : Z) (fl : bool) : Prop :=
  exists pre ts cb c0 n, round pre k fl ts cb /\ nth_error ts n = Some (t, r) /\ c = c0 + Z.of_nat n /\
                         q = pre ++ map Act (firstn n (asked k fl c0 ts)).
Definition asks_belong (tr : list event) : Prop := forall q k c t r fl rest, tr = q ++ Act (Ask k c t r fl) :: rest -> belongs q k c t r fl.

Lemma split_app {A} (a b q : list A) x rest : a ++ b = q ++ x :: rest -> (exists r1, a = q ++ x :: r1) \/ (exists q2, q = a ++ q2 /\ b = q2 ++ x :: rest).
Proof.
  revert q. induction a as [|y a IH]; intros q H; simpl in H.
  - right. exists q. auto.
  - destruct q as [|z q]; simpl in H.
    + injection H as <- _. left. exists a. auto.
    + injection H as <- H. destruct (IH q H) as [(r1&->)|(q2&->&->)]; [left; exists r1; auto|right; exists q2; auto].
Qed.

Lemma belong_app tr e : asks_belong tr -> (forall q k c t r fl rest, e = q ++ Act (Ask k c t r fl) :: rest -> belongs (tr ++ q) k c t r fl) -> asks_belong (tr ++ e).
Proof.
  intros H1 H2 q k c t r fl rest E. apply split_app in E as [(r1&E)|(q2&->&E)]; [eapply H1; eauto|eapply H2; eauto].
Qed.
Lemma belong_none tr e : asks_belong tr -> (forall k c t r fl, ~ In (Act (Ask k c t r fl)) e) -> asks_belong (tr ++ e).
Proof. intros H N. apply belong_app; auto. intros q k c t r fl rest ->. exfalso. eapply N. apply in_app_iff. right. left. reflexivity. Qed.

Lemma belong_round tr k fl ts cb c0 : asks_belong tr -> round tr k fl ts cb -> asks_belong (tr ++ map Act (asked k fl c0 ts)).
Proof.
  intros H R. apply belong_app; auto. intros q k' c t r fl' rest E.
  assert (N : nth_error (map Act (asked k fl c0 ts)) (length q) = Some (Act (Ask k' c t r fl'))) by (rewrite E, nth_error_app2, Nat.sub_diag; auto).
  rewrite nth_error_map, asked_nth in N. destruct (nth_error ts (length q)) as [[u r']|] eqn:NT; [|discriminate]. injection N as -> <- -> -> ->.
  exists tr, ts, cb, c0, (length q). split; auto. split; auto. split; auto. f_equal.
  assert (Q : q = firstn (length q) (map Act (asked k' fl' c0 ts))) by (rewrite E, firstn_app, Nat.sub_diag, firstn_all; simpl; rewrite app_nil_r; auto).
  rewrite firstn_map in Q. exact Q.
Qed.

Lemma no_asks_remove g s s' a k c t r fl : remove_tx g s = (s', a) -> ~ In (Act (Ask k c t r fl)) (map Act a).
Proof. unfold remove_tx. destruct (find_tx g _); intros H; injection H as <- <-; simpl; [intros [X|[]]; discriminate|tauto]. Qed.

Theorem reach_asks tr c : reach tr c -> asks_belong tr.
Proof.
  induction 1 as [|tr c e c' R IH U|tr s D tk l n R IH]; auto.
  - intros q k c t r fl rest E. destruct q; discriminate.
  - pose proof (reach_P _ _ R) as HP. destruct U; try (rewrite app_nil_r; exact IH);
      try (apply belong_none; auto; intros k0 c0 t0 r0 fl0 [E|[]]; discriminate; fail).
    + apply belong_none; auto. intros k0 c0 t0 r0 fl0 [E|[]]. injection E as ->. discriminate.
    + apply belong_none; auto. intros k0 c0 t0 r0 fl0 [E|E]; [discriminate|]. eapply no_asks_remove; eauto.
    + pose proof (round_of_start _ _ _ _ _ _ _ _ _ R H H0) as RD. rewrite ask_spec in H1. injection H1 as <- <- <-. eapply belong_round; eauto.
    + apply belong_none; auto. intros k0 c0 t0 r0 fl0 [E|[]]. subst ev. inversion H.
    + apply belong_none; auto. intros k0 c0 t0 r0 fl0 [E|E]; [discriminate|]. eapply no_asks_remove; eauto.
    + apply belong_none; auto. intros k0 c0 t0 r0 fl0 [E|E]; [discriminate|]. eapply no_asks_remove; eauto.
    + apply belong_none; auto. intros k0 c0 t0 r0 fl0 E. eapply no_asks_remove; eauto.
    + apply belong_none; auto. intros k0 c0 t0 r0 fl0 [E|E]; [discriminate|]. eapply no_asks_remove; eauto.
    + apply belong_none; auto. intros k0 c0 t0 r0 fl0 [E|E]; [discriminate|]. apply in_map_iff in E as (a&E&_). discriminate.
    + destruct (p_t _ _ HP d eq_refl) as ((pre&fl&ts&c&post1&post2&E&RD&EN&NR)&CO&CR).
      rewrite ask_spec in H2. injection H2 as <- <- <-. eapply belong_round; auto. rewrite E. apply rd_commit; auto.
    + assert (Q : prov_d tr KPrepare d) by (apply (p_d _ _ HP KPrepare); cbn [fst snd d_of]; rewrite H; left; auto).
      destruct Q as (pre&fl&ts&c&post1&post2&E&RD&EN&NR).
      rewrite ask_spec in H4. injection H4 as <- <- <-. eapply belong_round; auto. rewrite E. apply rd_abort; auto.
Qed.

(* ------------------------------------------------------------ every answer has a reason *)
Inductive reason : list event -> answer -> Prop :=
| w_refuse pre i a : refusal i a -> reason (pre ++ [Recv i]) a
| w_nothing pre i g a : nothing_to_do i g a -> (forall b r, ~ takes_part (pre ++ [Recv i]) g b r) -> reason (pre ++ [Recv i]) a
| w_committed q d : prov_d q KCommit d -> reason q (create_reply (d_call d) Commit (accumulate KCommit (votes d) (d_out d) (c_code (d_call d))))
| w_rolledback q d : prov_d q KRollback d -> same_proc (d_proc (c_dest (d_call d))) self = false ->
    reason q (create_reply (d_call d) Rollback (accumulate KRollback (votes d) (d_out d) (c_code (d_call d))))
| w_readonly q d : prov_d q KPrepare d -> code_of d = read_only -> reason q (create_reply (d_call d) Commit (code_of d))
| w_bad q d : prov_d q KPrepare d -> code_of d <> read_only -> code_of d <> xa_ok -> c_reply (d_call d) = ResPrepare ->
    reason q (create_reply (d_call d) Prepare (code_of d))
| w_prepared q1 q2 d : prov_d q1 KPrepare d -> code_of d = xa_ok -> c_reply (d_call d) = ResPrepare \/ c_reply (d_call d) = UserCommit ->
    reason (q1 ++ q2) (create_reply (d_call d) Prepare (code_of d)).

Definition answers_reasoned (tr : list event) : Prop := forall q a rest, tr = q ++ Act (Answer a) :: rest -> reason q a.
(* what waits to be persisted *)
Definition replies_reasoned (tr : list event) (s : tm) : Prop :=
  forall a, In a (s_replies s) -> exists q1 q2 d, tr = q1 ++ q2 /\ a = create_reply (d_call d) Prepare (code_of d) /\
      prov_d q1 KPrepare d /\ code_of d = xa_ok /\ (c_reply (d_call d) = ResPrepare \/ c_reply (d_call d) = UserCommit).

Lemma reasoned_app tr e : answers_reasoned tr -> (forall q a rest, e = q ++ Act (Answer a) :: rest -> reason (tr ++ q) a) -> answers_reasoned (tr ++ e).
Proof. intros H1 H2 q a rest E. apply split_app in E as [(r1&E)|(q2&->&E)]; [eapply H1; eauto|eapply H2; eauto]. Qed.
Lemma reasoned_none tr e : answers_reasoned tr -> (forall a, ~ In (Act (Answer a)) e) -> answers_reasoned (tr ++ e).
Proof. intros H N. apply reasoned_app; auto. intros q a rest ->. exfalso. eapply N. apply in_app_iff. right. left. reflexivity. Qed.
Lemma reasoned_one tr a e : answers_reasoned tr -> reason tr a -> (forall x, ~ In (Act (Answer x)) e) -> answers_reasoned (tr ++ Act (Answer a) :: e).
Proof.
  intros H R N. apply reasoned_app; auto. intros q x rest E. destruct q as [|y q]; simpl in E.
  - injection E as <- _. rewrite app_nil_r. auto.
  - injection E as _ ->. exfalso. eapply N. apply in_app_iff. right. left. reflexivity.
Qed.
Lemma no_answers_remove g s s' a x : remove_tx g s = (s', a) -> ~ In (Act (Answer x)) (map Act a).
Proof. unfold remove_tx. destruct (find_tx g _); intros H; injection H as <- <-; simpl; [intros [X|[]]; discriminate|tauto]. Qed.
Lemma no_answers_asked k fl ts c x : ~ In (Act (Answer x)) (map Act (asked k fl c ts)).
Proof. revert c. induction ts as [|[t r] ts IH]; intros c; simpl; [tauto|]. intros [E|E]; [discriminate|eapply IH; eauto]. Qed.

Lemma replies_app tr e s s' : s_replies s' = s_replies s -> replies_reasoned tr s -> replies_reasoned (tr ++ e) s'.
Proof. intros E H a I. rewrite E in I. destruct (H a I) as (q1&q2&d&->&A). exists q1, (q2 ++ e), d. split; [rewrite app_assoc; auto|auto]. Qed.
Lemma replies_remove g s s' a : remove_tx g s = (s', a) -> s_replies s' = s_replies s.
Proof. unfold remove_tx. destruct (find_tx g _); intros H; injection H as <- <-; auto. Qed.

Theorem reach_answers tr c : reach tr c -> answers_reasoned tr /\ replies_reasoned tr (fst (fst c)).
Proof.
  induction 1 as [|tr c e c' R IH U|tr s D tk l n R IH].
  - split; [intros q a rest E; destruct q; discriminate|intros a []].
  - pose proof (reach_P _ _ R) as HP. pose proof (reach_Book _ _ _ R) as HB. destruct IH as [IH IR]. destruct U; cbn [fst] in *.
    + split; [apply reasoned_none; auto; intros a [E|[]]; discriminate|eapply (replies_app _ _ s); [auto|exact IR]].
    + split; [apply reasoned_none; auto; intros a [E|[]]; discriminate|eapply (replies_app _ _ s); [|exact IR]]. unfold touch. destruct (find_tx _ _); auto.
    + rewrite app_nil_r. split; auto. rewrite <- (app_nil_r tr). eapply (replies_app _ _ s); [|exact IR]. unfold touch. destruct (find_tx _ _); auto.
    + rewrite app_nil_r. split; auto.
    + rewrite app_nil_r. split; auto.
    + split; [apply reasoned_none; auto; intros a0 [E|[]]; injection E as ->; discriminate|eapply (replies_app _ _ s); [auto|exact IR]].
    + split; [|eapply (replies_app _ _ s); [auto|exact IR]]. apply reasoned_one; auto. destruct (reach_token _ _ _ R i eq_refl) as (pre&->). apply w_refuse; auto.
    + split; [|eapply replies_app; [eapply replies_remove; eauto|exact IR]]. apply reasoned_one; auto; [|intros; eapply no_answers_remove; eauto].
      destruct (reach_token _ _ _ R i eq_refl) as (pre&->). eapply w_nothing; eauto. intros b r T. specialize (HB g). rewrite H0 in HB. destruct HB as [_ HB].
      destruct (HB H1 b r T) as (t&I&_). rewrite H2 in I. destruct I.
    + rewrite ask_spec in H1. injection H1 as <- <- <-. split; [apply reasoned_none; auto; intros; apply no_answers_asked|eapply (replies_app _ _ s); [destruct k; auto|exact IR]].
    + split; [apply reasoned_none; auto; intros a [E|[]]; subst ev; inversion H|eapply (replies_app _ _ s); [destruct k; auto|exact IR]].
    + split; [|eapply replies_app; [eapply replies_remove; eauto|exact IR]]. apply reasoned_one; auto; [|intros; eapply no_answers_remove; eauto].
      apply w_committed. apply (p_d _ _ HP KCommit). cbn [fst snd d_of]. rewrite H. left; auto.
    + split; [|eapply replies_app; [eapply replies_remove; eauto|exact IR]]. apply reasoned_one; auto; [|intros; eapply no_answers_remove; eauto].
      apply w_rolledback; auto. apply (p_d _ _ HP KRollback). cbn [fst snd d_of]. rewrite H. left; auto.
    + split; [apply reasoned_none; auto; intros; eapply no_answers_remove; eauto|eapply replies_app; [eapply replies_remove; eauto|exact IR]].
    + rewrite app_nil_r. split; auto.
    + rewrite app_nil_r. split; auto.
    + assert (Q : prov_d tr KPrepare d) by (apply (p_d _ _ HP KPrepare); cbn [fst snd d_of]; rewrite H; left; auto).
      split; [|eapply replies_app; [apply (replies_remove _ _ _ _ H2)|exact IR]]. apply reasoned_one; auto; [|intros; eapply no_answers_remove; eauto].
      apply w_readonly; auto.
    + assert (Q : prov_d tr KPrepare d) by (apply (p_d _ _ HP KPrepare); cbn [fst snd d_of]; rewrite H; left; auto).
      split; [apply reasoned_none; auto; intros a [E|[]]; discriminate|]. intros a I. cbn [s_replies w_replies] in I. apply in_app_iff in I as [I|[<-|[]]].
      * destruct (IR a I) as (q1&q2&d'&->&A). exists q1, (q2 ++ [Act (Logged (origin_g d) (rows (voted d x)))]), d'. rewrite <- app_assoc. auto.
      * exists tr, [Act (Logged (origin_g d) (rows (voted d x)))], d. auto 10.
    + assert (Q : prov_d tr KPrepare d) by (apply (p_d _ _ HP KPrepare); cbn [fst snd d_of]; rewrite H; left; auto).
      split; [apply reasoned_none; auto; intros a [E|[]]; discriminate|]. intros a I.
      assert (I' : In a (s_replies s) \/ (c_reply (d_call d) = UserCommit /\ a = create_reply (d_call d) Prepare (code_of d))).
      { destruct (c_reply (d_call d)); auto. cbn [s_replies w_replies] in I. apply in_app_iff in I as [I|[<-|[]]]; auto. }
      destruct I' as [I'|[CU ->]].
      * destruct (IR a I') as (q1&q2&d'&->&A). exists q1, (q2 ++ [Act (Logged (origin_g d) (rows (voted d x)))]), d'. rewrite <- app_assoc. auto.
      * exists tr, [Act (Logged (origin_g d) (rows (voted d x)))], d. auto 10.
    + split; [|intros a []]. change (Act (Persisted (s_log s)) :: map (fun a => Act (Answer a)) (s_replies s)) with ([Act (Persisted (s_log s))] ++ map (fun a => Act (Answer a)) (s_replies s)).
      apply reasoned_app; auto. intros q a rest E. assert (I : In (Act (Answer a)) ([Act (Persisted (s_log s))] ++ map (fun a => Act (Answer a)) (s_replies s))) by (rewrite E, in_app_iff; simpl; auto).
      simpl in I. destruct I as [I|I]; [discriminate|]. apply in_map_iff in I as (a'&EA&I). injection EA as ->. destruct (IR a I) as (q1&q2&d&->&->&A1&A2&A3).
      rewrite <- app_assoc. apply w_prepared; auto.
    + rewrite ask_spec in H2. injection H2 as <- <- <-. split; [apply reasoned_none; auto; intros; apply no_answers_asked|eapply (replies_app _ _ s); [auto|exact IR]].
    + assert (Q : prov_d tr KPrepare d) by (apply (p_d _ _ HP KPrepare); cbn [fst snd d_of]; rewrite H; left; auto).
      split; [|eapply (replies_app _ _ s); [auto|exact IR]]. apply reasoned_one; auto. apply w_bad; auto.
    + rewrite ask_spec in H4. injection H4 as <- <- <-. split; [apply reasoned_none; auto; intros; apply no_answers_asked|eapply (replies_app _ _ s); [auto|exact IR]].
  - destruct IH as [IH IR]. split; auto.
Qed.

End Prov.

(* How many coordinations of a transaction are under way: at most one, and which one follows from the stage (C15). *)
From Coq Require Import ZArith List Bool Lia Permutation.
From Verif Require Import CodesModel FanModel FanSpec FanProofs FanTrack TmModel TmSpec TmMicro TmFacts TmProv.
From Verif Require GroupModel GroupProofs.
Import ListNotations.
Local Open Scope Z_scope.

(* ------------------------------------------------------------ counting calls *)
Definition cnt (p : call -> bool) (k : kind) (s : tm) (D : todo) : nat :=
  (count p (map e_call (f_entries (fan_of k s))) + count p (map d_call (d_of k D)))%nat.
Definition one (b : bool) : nat := if b then 1%nat else 0%nat.

Lemma count_app {A} (p : A -> bool) a b : count p (a ++ b) = (count p a + count p b)%nat.
Proof. unfold count. rewrite filter_app, app_length. auto. Qed.
Lemma count_cons {A} (p : A -> bool) x l : count p (x :: l) = (one (p x) + count p l)%nat.
Proof. unfold count, one. simpl. destruct (p x); auto. Qed.
Lemma count_nil {A} (p : A -> bool) : count p [] = 0%nat. Proof. auto. Qed.
Lemma count_split {A} (p q : A -> bool) l : (count p (filter (fun x => negb (q x)) l) + count p (filter q l) = count p l)%nat.
Proof. induction l as [|x l IH]; simpl; auto. destruct (q x); simpl; rewrite !count_cons; lia. Qed.
Lemma count_map_split {A B} (p : B -> bool) (h : A -> B) (q : A -> bool) l :
  (count p (map h (filter (fun x => negb (q x)) l)) + count p (map h (filter q l)) = count p (map h l))%nat.
Proof. induction l as [|x l IH]; simpl; auto. destruct (q x); simpl; rewrite !count_cons; lia. Qed.

Lemma cnt_same p k s s' D : fan_of k s' = fan_of k s -> cnt p k s' D = cnt p k s D.
Proof. unfold cnt. intros ->. auto. Qed.

Lemma cnt_start p k' k fl ts cb s s3 ps a f ds D : V s -> ask k fl ts s = (s3, ps, a) -> fan_start ps cb (fan_of k s3) = (f, ds) ->
  cnt p k' (w_fan k f s3) (w_d k (ds ++ d_of k D) D) = (cnt p k' s D + if kind_eqb k k' then one (p cb) else 0)%nat.
Proof.
  intros HV A F. destruct (start_facts k fl ts cb s s3 ps a f ds HV A F) as (_&->&_&S). cbv zeta in S. unfold cnt. rewrite fan_w, d_w. destruct (kind_eqb k k') eqn:K.
  - apply kind_eqb_eq in K. subst k'. destruct (done _); destruct S as [-> ->].
    + rewrite map_app, count_app. cbn [map d_call]. rewrite count_cons, count_nil. lia.
    + rewrite map_app, count_app. cbn [map e_call app]. rewrite count_cons, count_nil. lia.
  - replace (fan_of k' (w_next (s_next s + Z.of_nat (length ts)) s)) with (fan_of k' s) by (destruct k'; auto). lia.
Qed.

Lemma cnt_track p k' k o ev s f ds : V s -> track_event k o ev -> fan_step (fan_of k s) o = Some (f, ds) -> cnt p k' (w_fan k f s) (w_d k ds D0) = cnt p k' s D0.
Proof.
  intros HV T F. apply fan_after in F as (F1&F2&F3); [|apply (v_fan _ HV)|eapply track_event_op; eauto]. unfold cnt. rewrite fan_w, d_w. destruct (kind_eqb k k') eqn:K; auto.
  apply kind_eqb_eq in K. subst k'. rewrite F2, F3, map_map. cbn [d_call fire]. rewrite (count_map_split p e_call isdone).
  assert (EM : map e_call (map (after_op o) (f_entries (fan_of k s))) = map e_call (f_entries (fan_of k s))) by (rewrite map_map; apply map_ext; auto). rewrite EM. replace (d_of k D0) with (@nil firing) by (destruct k; auto). cbn [map]. rewrite count_nil. lia.
Qed.

Lemma cnt_pop p k' k s D d r : d_of k D = d :: r -> (cnt p k' s (w_d k r D) + (if kind_eqb k k' then one (p (d_call d)) else 0) = cnt p k' s D)%nat.
Proof.
  intros E. unfold cnt. rewrite d_w. destruct (kind_eqb k k') eqn:K; [|lia]. apply kind_eqb_eq in K. subst k'. rewrite E. cbn [map]. rewrite count_cons. lia.
Qed.

Lemma cnt_D0 p k s : d_of k D0 = [] /\ cnt p k s D0 = count p (map e_call (f_entries (fan_of k s))).
Proof. unfold cnt. replace (d_of k D0) with (@nil firing) by (destruct k; auto). split; auto. Qed.

Definition of_g (g : Z) (cb : call) : bool := t_g (c_origin cb) =? g.
Definition dec (g : Z) (tk : token) : nat := match tk with Decided d => one (origin_g d =? g) | _ => 0%nat end.

Section Flow.
Variable known : list Z.
Notation reach := (reach known).

(* ------------------------------------------------------------ the destination of a coordination *)
Lemma undisturbed_prefix g a b : undisturbed g (a ++ b) -> undisturbed g a.
Proof.
  intros (A&B&C). split; [|split].
  - intros p corr t rs I. apply (A p corr t rs). apply in_app_iff. auto.
  - intros pid i t I1 I2. apply B; apply in_app_iff; auto.
  - intros i p I. apply C. apply in_app_iff. auto.
Qed.

Lemma proc_neq p : p <> self -> same_proc p self = false.
Proof.
  intros N. unfold same_proc. destruct (Z.eqb_spec (p_pid p) (p_pid self)) as [A|A]; auto. destruct (Z.eqb_spec (p_ipc p) (p_ipc self)) as [B|B]; auto.
  exfalso. apply N. destruct p. cbn in A, B. subst. reflexivity.
Qed.

Lemma round_dest pre k fl ts cb : round known pre k fl ts cb -> undisturbed (t_g (c_origin cb)) pre -> same_proc (d_proc (c_dest cb)) self = false.
Proof.
  induction 1 as [pre0 i k fl ts cb AS CV|pre0 p corr t r ts W|pre ts cb AB W|pre1 fl1 ts1 c1 post1 post2 d R1 IH|pre1 fl1 ts1 c1 post1 post2 d R1 IH]; intros U.
  - apply proc_neq. destruct U as (_&_&U). apply (U i); [apply in_app_iff; simpl; auto|]. destruct i; simpl in AS; try tauto; destruct AS as [-> _]; auto.
  - apply proc_neq. destruct U as (_&_&U). apply (U (IExtCommit p corr t r)); [apply in_app_iff; simpl; auto|auto].
  - destruct AB as [(pre0&p&corr&t&rs&->&->)|[(pre0&p&corr&t&r&->&->)|(t&->&(i&I&M)&E)]]; cbn [c_dest c_origin d_proc user_dest] in *.
    + exfalso. destruct U as (U&_&_). apply (U p corr t rs); auto. apply in_app_iff. simpl. auto.
    + apply proc_neq. destruct U as (_&_&U). apply (U (IExtRollback p corr t r)); [apply in_app_iff; simpl; auto|auto].
    + exfalso. destruct U as (_&U&_). apply (U _ _ _ E I M); auto.
  - cbn [c_dest c_origin] in *. apply IH. apply undisturbed_prefix in U. exact U.
  - cbn [c_dest c_origin] in *. apply IH. apply undisturbed_prefix in U. exact U.
Qed.

Lemma prov_dest g tr k d : prov_d known tr k d -> origin_g d = g -> undisturbed g tr -> same_proc (d_proc (c_dest (d_call d))) self = false.
Proof. intros (pre&fl&ts&c&post1&post2&->&R&_) <- U. eapply round_dest; eauto. eapply undisturbed_prefix; eauto. Qed.

(* ------------------------------------------------------------ the stage says what is under way *)
Definition Jst (o : option txn) (p c r d : nat) : Prop :=
  match option_map x_stage o with
  | None | Some Involved => p = 0 /\ c = 0 /\ r = 0 /\ d = 0
  | Some Prepare => p = 1 /\ c = 0 /\ r = 0 /\ d = 0
  | Some PostPrepare => p = 0 /\ c = 0 /\ r = 0 /\ d <= 1
  | Some Commit => p = 0 /\ c = 1 /\ r = 0 /\ d = 0
  | Some Rollback => p = 0 /\ c = 0 /\ r = 1 /\ d = 0
  end%nat.
Definition J (g : Z) (c : cfg) : Prop :=
  Jst (find_tx g (fst (fst c))) (cnt (of_g g) KPrepare (fst (fst c)) (snd (fst c))) (cnt (of_g g) KCommit (fst (fst c)) (snd (fst c)))
      (cnt (of_g g) KRollback (fst (fst c)) (snd (fst c))) (dec g (snd c)).

Lemma J_same g s s' D tk tk' : option_map x_stage (find_tx g s') = option_map x_stage (find_tx g s) -> (forall k, fan_of k s' = fan_of k s) -> dec g tk' = dec g tk ->
  J g (s, D, tk) -> J g (s', D, tk').
Proof. unfold J, Jst. cbn [fst snd]. intros E F T. rewrite E, T, !(cnt_same _ _ s s') by auto. auto. Qed.

Lemma fan_touch t f s k : fan_of k (touch t f s) = fan_of k s.
Proof. unfold touch. destruct (find_tx _ _); destruct k; auto. Qed.
Lemma dec_tok g i : dec g (tok_of i) = 0%nat. Proof. unfold tok_of. destruct (request_of i); auto. Qed.

Lemma J_touch g t rs s D tk tk' : dec g tk' = dec g tk -> J g (s, D, tk) -> J g (touch t (involve rs) s, D, tk').
Proof.
  intros T H. destruct (find_tx (t_g t) s) as [x|] eqn:F.
  - apply (J_same _ s _ _ tk); auto using fan_touch. rewrite find_touched. destruct (Z.eqb_spec (t_g t) g) as [<-|]; auto. rewrite F. auto.
  - destruct (Z.eqb_spec (t_g t) g) as [<-|N].
    + unfold J, Jst in *. cbn [fst snd] in *. rewrite F in H. rewrite find_touched, Z.eqb_refl, F, T. cbn [option_map st_of x_stage] in *. rewrite !(cnt_same _ KPrepare s (touch t (involve rs) s)), !(cnt_same _ KCommit s (touch t (involve rs) s)), !(cnt_same _ KRollback s (touch t (involve rs) s)) by apply fan_touch. exact H.

    + apply (J_same _ s _ _ tk); auto using fan_touch. rewrite find_touched. destruct (Z.eqb_spec (t_g t) g); [tauto|auto].
Qed.

(* popping a callback of g whose transaction is removed *)
Lemma kinds k k' : kind_eqb k k' = true <-> k = k'. Proof. split; [apply kind_eqb_eq|intros ->; apply kind_eqb_refl]. Qed.

Lemma J_removed g k d r s D s' a : V s -> d_of k D = d :: r -> remove_tx (origin_g d) s = (s', a) -> J g (s, D, Idle) -> J g (s', w_d k r D, Idle).
Proof.
  intros HV E RM H. apply remove_spec in RM as (_&R2&R3&_); [|apply (v_nd _ HV)]. unfold J in *. cbn [fst snd dec] in *. rewrite R2.
  pose proof (cnt_pop (of_g g) KPrepare k s D d r E) as C1. pose proof (cnt_pop (of_g g) KCommit k s D d r E) as C2. pose proof (cnt_pop (of_g g) KRollback k s D d r E) as C3.
  rewrite !(cnt_same _ _ s s') by auto. change (of_g g (d_call d)) with (origin_g d =? g) in *.
  destruct (Z.eqb_spec (origin_g d) g) as [EG|NG].
  - unfold Jst in *. destruct (option_map x_stage (find_tx g s)) as [[]|]; cbn [option_map]; destruct k; cbn [kind_eqb one] in *; lia.
  - destruct k; cbn [kind_eqb one] in *; rewrite ?Nat.add_0_r in *; rewrite ?C1, ?C2, ?C3; auto.
Qed.

Lemma cnt_upd p k x s D : cnt p k (upd_tx x s) D = cnt p k s D. Proof. apply cnt_same. destruct k; auto. Qed.

Lemma stage_set st x : stage_n (x_stage x) < stage_n st -> x_stage (set_stage st x) = st.
Proof. intros H. cbn [set_stage x_stage]. unfold advance. destruct (Z.ltb_spec (stage_n (x_stage x)) (stage_n st)); auto. lia. Qed.

Lemma stage_voted_prepare d x : x_stage x = Prepare -> x_stage (voted d x) = PostPrepare.
Proof. intros E. cbn [voted set_branches set_stage x_stage]. rewrite E. reflexivity. Qed.
Lemma stage_aborted d x : x_stage x = Prepare -> x_stage (set_stage Rollback (voted d x)) = Rollback.
Proof. intros E. cbn [voted set_branches set_stage x_stage]. rewrite E. reflexivity. Qed.

Lemma reach_J g tr c : reach tr c -> undisturbed g tr -> J g c.
Proof.
  induction 1 as [|tr c e c' R IH U|tr s D tk l n R IH]; intros UN.
  - unfold J, Jst. cbn. auto.
  - pose proof (undisturbed_prefix _ _ _ UN) as UP. specialize (IH UP). pose proof (reach_V _ _ _ R) as HV. pose proof (reach_P _ _ _ R) as HP. destruct U; cbn [fst] in *.
    + apply (J_same _ s _ _ Idle); auto using dec_tok.
    + apply (J_touch g t rs s D0 Idle (tok_of i)); [apply dec_tok|exact IH].
    + apply (J_touch g t [] s D tk tk); auto.
    + apply (J_same _ s _ _ tk); auto. rewrite (find_upd _ x); auto. cbn [set_branches x_g]. destruct (Z.eqb_spec (x_g x) g) as [<-|]; auto. rewrite H0. auto.
    + destruct (Z.eqb_spec (t_g t) g) as [<-|N].
      * unfold J, Jst in *. cbn [fst snd] in *. rewrite find_snoc. cbn [x_g]. rewrite H0, Z.eqb_refl in *. cbn [option_map x_stage] in *. exact IH.
      * apply (J_same _ s _ _ tk); auto. rewrite find_snoc. cbn [x_g]. destruct (Z.eqb_spec (t_g t) g); [tauto|]. destruct (find_tx g s); auto.
    + exact IH.
    + apply (J_same _ s _ _ (Req i)); auto.
    + apply remove_spec in H3 as (_&R2&R3&_); [|apply (v_nd _ HV)]. destruct (Z.eqb_spec g0 g) as [->|N].
      * unfold J, Jst in *. cbn [fst snd] in *. rewrite R2, Z.eqb_refl, !(cnt_same _ _ s s') by auto. rewrite H0 in IH. cbn [option_map] in *. rewrite H1 in IH. exact IH.
      * apply (J_same _ s _ _ (Req i)); auto. rewrite R2. destruct (Z.eqb_spec g0 g); [tauto|auto].
    + unfold J in *. cbn [fst snd] in *. rewrite !(cnt_start (of_g g) _ k fl _ cb _ s3 ps a f ds D (V_upd (set_stage st x) _ HV) H1 H2), !cnt_upd.
      assert (FT : find_tx g (w_fan k f s3) = if t_g (c_origin cb) =? g then Some (set_stage st x) else find_tx g s).
      { rewrite (find_txs g s3) by apply txs_w. destruct (ask_frame _ _ _ _ _ _ _ H1) as (n&->&_). rewrite (find_txs g (upd_tx (set_stage st x) s)) by auto.
        pose proof (find_tx_g _ _ _ H0) as G. rewrite (find_upd _ x); [cbn [set_stage x_g]; rewrite G; auto|]. cbn [set_stage x_g]. rewrite G. auto. }
      rewrite FT. unfold of_g at 4 5 6. destruct (Z.eqb_spec (t_g (c_origin cb)) g) as [EG|NG].
      * subst g. rewrite H0 in IH. unfold Jst in *. cbn [option_map dec] in *. unfold of_g in *. rewrite Z.eqb_refl. destruct H as [_ S]. destruct tk as [|i|d0].
        -- exfalso. destruct S as (t&pid&->&_&_&_&(i&I&M)&EP&IE). destruct UP as (_&UP&_). apply (UP _ _ _ IE I M); auto.
        -- destruct i; try tauto.
           ++ destruct S as (->&S1&S2). cbn [c_origin] in *. destruct S2 as [(->&->&->&_)|(->&->&->&_)];
              rewrite stage_set by (rewrite S1; reflexivity); rewrite S1 in IH; cbn [one kind_eqb]; lia.
           ++ destruct S as (->&_). cbn [c_origin] in *. exfalso. destruct (reach_token _ _ _ R _ eq_refl) as (pre&->). destruct UP as (UP&_). eapply UP; eauto. apply in_app_iff. right. left. reflexivity.
           ++ destruct S as (->&S1&->&->&->). cbn [c_origin] in *. rewrite stage_set by (rewrite S1; reflexivity). rewrite S1 in IH. cbn [one kind_eqb]; lia.
           ++ destruct S as (->&_&S2). cbn [c_origin] in *. destruct S2 as [(S1&->&->&->)|(S1&->&->&->)];
              rewrite stage_set by (rewrite S1; reflexivity); rewrite S1 in IH; cbn [one kind_eqb]; lia.
           ++ destruct S as (->&->&->&->&S1). cbn [c_origin] in *. destruct S1 as [S1|S1];
              rewrite stage_set by (rewrite S1; reflexivity); rewrite S1 in IH; cbn [one kind_eqb]; lia.
        -- tauto.
      * assert (DT : dec g tk = 0%nat) by (destruct H as [_ S]; destruct tk; [auto|auto|destruct S]). rewrite DT in IH. unfold of_g. 
        replace (t_g (c_origin cb) =? g) with false by (symmetry; apply Z.eqb_neq; auto). cbn [one dec]. destruct k; cbn [kind_eqb]; rewrite !Nat.add_0_r; exact IH.
    + unfold J in *. cbn [fst snd] in *. rewrite !(cnt_track _ _ k o ev s f ds HV H H0). rewrite (find_txs g s) by apply txs_w. exact IH.
    + eapply J_removed with (k := KCommit); eauto.
    + eapply J_removed with (k := KRollback); eauto.
    + eapply J_removed with (k := KRollback); eauto.
    + assert (Q : prov_d known tr KRollback d) by (apply (p_d _ _ _ HP KRollback); cbn [fst snd d_of]; rewrite H; left; auto).
      assert (NG : origin_g d <> g) by (intros EG; pose proof (prov_dest _ _ _ _ Q EG UP); congruence).
      unfold J in *. cbn [fst snd] in *.
      pose proof (cnt_pop (of_g g) KPrepare KRollback s D d r H) as C1. pose proof (cnt_pop (of_g g) KCommit KRollback s D d r H) as C2. pose proof (cnt_pop (of_g g) KRollback KRollback s D d r H) as C3.
      change (of_g g (d_call d)) with (origin_g d =? g) in *. apply Z.eqb_neq in NG. rewrite NG in *. cbn [kind_eqb one] in *. rewrite !Nat.add_0_r in *. rewrite C1, C2, C3. auto.
    + unfold J in *. cbn [fst snd] in *.
      pose proof (cnt_pop (of_g g) KPrepare KPrepare s D d r H) as C1. pose proof (cnt_pop (of_g g) KCommit KPrepare s D d r H) as C2. pose proof (cnt_pop (of_g g) KRollback KPrepare s D d r H) as C3.
      change (of_g g (d_call d)) with (origin_g d =? g) in *. cbn [kind_eqb] in *. rewrite !Nat.add_0_r in *. destruct (Z.eqb_spec (origin_g d) g) as [EG|NG].
      * rewrite EG in H0. rewrite H0 in *. unfold Jst in *. cbn [option_map one] in *. lia.
      * cbn [one] in C1. rewrite Nat.add_0_r in C1. rewrite C1, C2, C3. auto.
    + assert (J' : J g (s', w_d KPrepare r D, Idle)); [|exact J'].
      pose proof (find_tx_g _ _ _ H0) as G. apply remove_spec in H2 as (_&R2&R3&_); [|apply (v_nd _ (V_upd _ _ HV))].
      unfold J in *. cbn [fst snd dec] in *. rewrite R2, !(cnt_same _ _ (upd_tx (voted d x) s) s') by auto. rewrite !cnt_upd.
      pose proof (cnt_pop (of_g g) KPrepare KPrepare s D d r H) as C1. pose proof (cnt_pop (of_g g) KCommit KPrepare s D d r H) as C2. pose proof (cnt_pop (of_g g) KRollback KPrepare s D d r H) as C3.
      change (of_g g (d_call d)) with (origin_g d =? g) in *. cbn [kind_eqb] in *. rewrite !Nat.add_0_r in *. destruct (Z.eqb_spec (origin_g d) g) as [EG|NG].
      * rewrite <- EG in IH. rewrite H0 in IH. rewrite EG in IH. unfold Jst in *. cbn [option_map one] in *. destruct (x_stage x); lia.
      * cbn [one] in C1. rewrite Nat.add_0_r in C1. rewrite C1, C2, C3. rewrite (find_upd _ x); [|cbn; rewrite G; auto]. cbn [voted set_branches set_stage x_g]. rewrite G.
        apply Z.eqb_neq in NG. rewrite NG. auto.
    + assert (EF : forall k, fan_of k (w_replies (s_replies s ++ [create_reply (d_call d) Prepare (code_of d)]) (w_log l (upd_tx (voted d x) s))) = fan_of k s) by (destruct k; auto).
      unfold J in *. cbn [fst snd dec] in *. rewrite !(cnt_same _ _ s (w_replies _ _)) by auto.
      change (find_tx g (w_replies (s_replies s ++ [create_reply (d_call d) Prepare (code_of d)]) (w_log l (upd_tx (voted d x) s)))) with (find_tx g (upd_tx (voted d x) s)).
      pose proof (find_tx_g _ _ _ H0) as G. rewrite (find_upd _ x); [|cbn; rewrite G; auto]. cbn [voted set_branches set_stage x_g]. rewrite G.
      pose proof (cnt_pop (of_g g) KPrepare KPrepare s D d r H) as C1. pose proof (cnt_pop (of_g g) KCommit KPrepare s D d r H) as C2. pose proof (cnt_pop (of_g g) KRollback KPrepare s D d r H) as C3.
      change (of_g g (d_call d)) with (origin_g d =? g) in *. cbn [kind_eqb] in *. rewrite !Nat.add_0_r in *. destruct (Z.eqb_spec (origin_g d) g) as [EG|NG].
      * rewrite <- EG in IH. rewrite H0 in IH. rewrite EG in IH. unfold Jst in *. cbn [option_map one x_stage] in *. destruct (x_stage x) eqn:SX; try lia; rewrite ?(stage_voted_prepare d x SX), ?(stage_aborted d x SX); lia.
      * cbn [one] in C1. rewrite Nat.add_0_r in C1. rewrite C1, C2, C3. auto.
    + set (s1 := match c_reply (d_call d) with UserCommit => _ | _ => _ end). assert (EF : forall k, fan_of k s1 = fan_of k s) by (subst s1; destruct (c_reply (d_call d)), k; auto).
      assert (ET : find_tx g s1 = find_tx g (upd_tx (voted d x) s)) by (subst s1; destruct (c_reply (d_call d)); auto).
      unfold J in *. cbn [fst snd dec] in *. rewrite !(cnt_same _ _ s s1) by auto. rewrite ET.
      pose proof (find_tx_g _ _ _ H0) as G. rewrite (find_upd _ x); [|cbn; rewrite G; auto]. cbn [voted set_branches set_stage x_g]. rewrite G.
      pose proof (cnt_pop (of_g g) KPrepare KPrepare s D d r H) as C1. pose proof (cnt_pop (of_g g) KCommit KPrepare s D d r H) as C2. pose proof (cnt_pop (of_g g) KRollback KPrepare s D d r H) as C3.
      change (of_g g (d_call d)) with (origin_g d =? g) in *. cbn [kind_eqb] in *. rewrite !Nat.add_0_r in *. destruct (Z.eqb_spec (origin_g d) g) as [EG|NG].
      * rewrite <- EG in IH. rewrite H0 in IH. rewrite EG in IH. unfold Jst in *. cbn [option_map one x_stage] in *. destruct (x_stage x) eqn:SX; try lia; rewrite ?(stage_voted_prepare d x SX), ?(stage_aborted d x SX); lia.
      * cbn [one] in C1. rewrite Nat.add_0_r in C1. rewrite C1, C2, C3. cbn [one]. auto.
    + apply (J_same _ s _ _ tk); auto.
    + unfold J in *. cbn [fst snd] in *.
      pose proof (fun k' => cnt_start (of_g g) k' KCommit false _ _ _ s3 ps a f ds D (V_upd (set_stage Commit x) _ HV) H2 H3) as CS. cbn [fan_of w_fan d_of] in CS. rewrite !CS, !cnt_upd. clear CS.
      pose proof (find_tx_g _ _ _ H) as G.
      assert (FT : find_tx g (w_c f s3) = if origin_g d =? g then Some (set_stage Commit x) else find_tx g s).
      { destruct (ask_frame _ _ _ _ _ _ _ H2) as (n&->&_). change (find_tx g (w_c f (w_next n (upd_tx (set_stage Commit x) s)))) with (find_tx g (upd_tx (set_stage Commit x) s)).
        rewrite (find_upd _ x); [cbn [set_stage x_g]; rewrite G; auto|]. cbn [set_stage x_g]. rewrite G. auto. }
      rewrite FT. change (of_g g (mk_c (c_reply (d_call d)) (c_origin (d_call d)) (c_dest (d_call d)) xa_ok)) with (origin_g d =? g). cbn [kind_eqb dec] in *. destruct (Z.eqb_spec (origin_g d) g) as [EG|NG].
      * rewrite EG in H. rewrite H in IH. unfold Jst in *. cbn [option_map one] in *. destruct (x_stage x) eqn:SX; try lia. rewrite stage_set by (rewrite SX; reflexivity). lia.
      * cbn [one] in *. rewrite !Nat.add_0_r. exact IH.
    + unfold J in *. cbn [fst snd dec] in *. rewrite !cnt_upd.
      pose proof (find_tx_g _ _ _ H0) as G. rewrite (find_upd _ x); [|cbn; rewrite G; auto]. cbn [voted set_branches set_stage x_g]. rewrite G.
      pose proof (cnt_pop (of_g g) KPrepare KPrepare s D d r H) as C1. pose proof (cnt_pop (of_g g) KCommit KPrepare s D d r H) as C2. pose proof (cnt_pop (of_g g) KRollback KPrepare s D d r H) as C3.
      change (of_g g (d_call d)) with (origin_g d =? g) in *. cbn [kind_eqb] in *. rewrite !Nat.add_0_r in *. destruct (Z.eqb_spec (origin_g d) g) as [EG|NG].
      * rewrite <- EG in IH. rewrite H0 in IH. rewrite EG in IH. unfold Jst in *. cbn [option_map one x_stage] in *. destruct (x_stage x) eqn:SX; try lia; rewrite ?(stage_voted_prepare d x SX), ?(stage_aborted d x SX); lia.
      * cbn [one] in C1. rewrite Nat.add_0_r in C1. rewrite C1, C2, C3. auto.
    + unfold J in *. cbn [fst snd] in *.
      pose proof (fun k' => cnt_start (of_g g) k' KRollback false _ _ _ s3 ps a f ds (w_d KPrepare r D) (V_upd (set_stage Rollback (voted d x)) _ (V_upd (voted d x) _ HV)) H4 H5) as CS.
      cbn [fan_of w_fan d_of w_d td_p td_c td_r] in CS. rewrite !CS, !cnt_upd. clear CS.
      pose proof (find_tx_g _ _ _ H0) as G.
      assert (FT : find_tx g (w_r f s3) = if origin_g d =? g then Some (set_stage Rollback (voted d x)) else find_tx g s).
      { destruct (ask_frame _ _ _ _ _ _ _ H4) as (n&->&_). change (find_tx g (w_r f (w_next n (upd_tx (set_stage Rollback (voted d x)) (upd_tx (voted d x) s))))) with (find_tx g (upd_tx (set_stage Rollback (voted d x)) (upd_tx (voted d x) s))).
        rewrite (find_upd _ (voted d x)); cbn [set_stage voted set_branches x_g]; rewrite G.
        - destruct (origin_g d =? g) eqn:EG; auto. rewrite (find_upd _ x); cbn [set_stage voted set_branches x_g]; rewrite G; [rewrite EG; auto|auto].
        - rewrite (find_upd _ x); cbn [set_stage voted set_branches x_g]; rewrite G; [rewrite Z.eqb_refl; auto|auto]. }
      rewrite FT. change (of_g g (mk_c (c_reply (d_call d)) (c_origin (d_call d)) (c_dest (d_call d)) (code_of d))) with (origin_g d =? g).
      pose proof (cnt_pop (of_g g) KPrepare KPrepare s D d r H) as C1. pose proof (cnt_pop (of_g g) KCommit KPrepare s D d r H) as C2. pose proof (cnt_pop (of_g g) KRollback KPrepare s D d r H) as C3.
      change (mk_todo r (td_c D) (td_r D)) with (w_d KPrepare r D).
      change (of_g g (d_call d)) with (origin_g d =? g) in *. cbn [kind_eqb dec] in *. rewrite !Nat.add_0_r in *. destruct (Z.eqb_spec (origin_g d) g) as [EG|NG].
      * rewrite <- EG in IH. rewrite H0 in IH. rewrite EG in IH. unfold Jst in *. cbn [option_map one x_stage] in *. destruct (x_stage x) eqn:SX; try lia; rewrite ?(stage_voted_prepare d x SX), ?(stage_aborted d x SX); lia.
      * cbn [one] in *. rewrite !Nat.add_0_r in *. rewrite C1, C2, C3. auto.
  - apply IH in UN. exact UN.
Qed.

End Flow.

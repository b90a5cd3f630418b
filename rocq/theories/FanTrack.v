(* More about fan-outs: one reply or failure changes every entry like [track] says; which reply counts. *)
From Coq Require Import ZArith List Bool Lia Permutation.
From Verif Require Import FanModel FanSpec FanProofs.
Import ListNotations.
Local Open Scope Z_scope.

Section Track.
Context {M C : Type}.
Implicit Types (f : fan M C) (e : entry M C) (st : progress M) (o : fop M C).

Definition state_of (e : entry M C) : progress M := (e_pend e, e_recv e).
Definition after_op (o : fop M C) (e : entry M C) : entry M C :=
  mk_e (e_key e) (fst (track (state_of e) o)) (snd (track (state_of e) o)) (e_call e).
Definition is_start (o : fop M C) : bool := match o with Start _ _ => true | _ => false end.
Definition isdone (e : entry M C) : bool := done (e_pend e).

Lemma after_reply_other c m e : (forall p, In p (e_pend e) -> p_corr p = c -> p_state p <> Waiting) -> after_op (Reply c m) e = e.
Proof.
  intros H. unfold after_op, state_of. cbn [track fst snd].
  destruct (existsb (fun p => (p_corr p =? c) && waiting p) (e_pend e)) eqn:X; [|destruct e; auto].
  apply existsb_exists in X as (p&P&X). apply andb_true_iff in X as [X1 X2]. apply Z.eqb_eq in X1. unfold waiting in X2.
  destruct (p_state p) eqn:W; try discriminate. exfalso. eapply H; eauto.
Qed.

Lemma fan_after f o f' ds : Finv f -> is_start o = false -> fan_step f o = Some (f', ds) ->
  Finv f' /\ f_entries f' = filter (fun e => negb (isdone e)) (map (after_op o) (f_entries f)) /\
  ds = map fire (filter isdone (map (after_op o) (f_entries f))).
Proof.
  intros I NS H. destruct o as [|c m|id]; [discriminate| |].
  - cbn [fan_step] in H.
    destruct (existsb (fun e => existsb (fun p => (p_corr p =? c) && waiting p) (e_pend e)) (f_entries f)) eqn:Y.
    + apply existsb_exists in Y as (e&E&Y). apply existsb_exists in Y as (p&P&Y). apply andb_true_iff in Y as [Y1 Y2].
      apply Z.eqb_eq in Y1. unfold waiting in Y2. destruct (p_state p) eqn:W; try discriminate.
      destruct (reply_counts f c m e p I E P Y1 W) as (f1&d1&A&B&B2&B3). rewrite A in H. injection H as -> ->. split; auto.
      cbv zeta in B3. set (e' := mk_e (e_key e) (received_at c (e_pend e)) (e_recv e ++ [(c, m)]) (e_call e)) in *.
      assert (AE : after_op (Reply c m) e = e').
      { unfold after_op, state_of. cbn [track fst snd].
        replace (existsb (fun p0 => (p_corr p0 =? c) && waiting p0) (e_pend e)) with true; [reflexivity|]. symmetry. apply existsb_exists.
        exists p. split; auto. unfold waiting. rewrite Y1, W, Z.eqb_refl. auto. }
      assert (AO : forall x, In x (f_entries f) -> x <> e -> after_op (Reply c m) x = x).
      { intros x X NE. apply after_reply_other. intros q Q QC QW. apply NE.
        destruct (corr_unique _ x e q p (fi_corrs _ I) X E Q P); congruence. }
      assert (KEY : forall x, In x (f_entries f) -> e_key x = e_key e -> x = e) by (intros; eapply key_unique; eauto; apply (fi_keys _ I)).
      assert (OPEN := fi_open _ I). assert (NK := fi_keys _ I).
      clear A B B2 I NS. 
      assert (G : filter (fun e => negb (isdone e)) (map (after_op (Reply c m)) (f_entries f)) =
                  (if done (received_at c (e_pend e)) then filter (fun x => negb (e_key x =? e_key e)) (f_entries f)
                   else map (fun x => if e_key x =? e_key e then e' else x) (f_entries f)) /\
                  filter isdone (map (after_op (Reply c m)) (f_entries f)) = if done (received_at c (e_pend e)) then [e'] else []).
      { clear B3. revert E AO KEY OPEN NK. generalize (f_entries f). induction l as [|x l IH]; intros E AO KEY OPEN NK; [destruct E|].
        cbn [map filter]. destruct (Z.eqb_spec (e_key x) (e_key e)) as [EK|EK].
        - assert (x = e) by (apply KEY; simpl; auto). subst x. rewrite AE. change (isdone e') with (done (received_at c (e_pend e))).
          assert (REST : map (after_op (Reply c m)) l = l).
          { rewrite <- (map_id l) at 2. apply map_ext_in. intros y Y. apply AO; [simpl; auto|]. intros ->. inversion NK; subst. apply H1. apply in_map. auto. }
          rewrite REST.
          assert (F1 : filter (fun e0 => negb (isdone e0)) l = l /\ filter isdone l = []).
          { clear - OPEN. induction l as [|y l IH]; auto. destruct IH as [I1 I2]; [intros z [Z|Z]; apply OPEN; simpl; auto|].
            simpl. assert (D : isdone y = false) by (apply OPEN; simpl; auto). rewrite D. simpl. rewrite I1, I2. auto. }
          destruct F1 as [F1 F2]. rewrite F1, F2.
          assert (F3 : filter (fun x => negb (e_key x =? e_key e)) l = l).
          { inversion NK; subst. clear - H1. induction l as [|y l IH]; auto. simpl. destruct (Z.eqb_spec (e_key y) (e_key e)) as [K|K]; simpl.
            - exfalso. apply H1. rewrite <- K. simpl. auto.
            - rewrite IH; auto. intros Q. apply H1. simpl. auto. }
          assert (F4 : map (fun x => if e_key x =? e_key e then e' else x) l = l).
          { inversion NK; subst. clear - H1. rewrite <- (map_id l) at 2. apply map_ext_in. intros y Y.
            destruct (Z.eqb_spec (e_key y) (e_key e)) as [K|K]; auto. exfalso. apply H1. rewrite <- K. apply in_map. auto. }
          destruct (done (received_at c (e_pend e))); cbn [negb]; rewrite ?F3, ?F4; auto.
        - destruct E as [->|E]; [congruence|]. rewrite AO by (simpl; auto; congruence). assert (D : isdone x = false) by (apply OPEN; simpl; auto).
          rewrite D. cbn [negb]. destruct IH as [I1 I2]; auto.
          + intros; apply AO; simpl; auto.
          + intros; apply KEY; simpl; auto.
          + intros; apply OPEN; simpl; auto.
          + inversion NK; auto.
          + rewrite I1, I2. destruct (done (received_at c (e_pend e))); auto. }
      destruct G as [G1 G2]. rewrite G1, G2. destruct (done (received_at c (e_pend e))); destruct B3 as [-> ->]; auto.
    + assert (NW : forall e p, In e (f_entries f) -> In p (e_pend e) -> p_corr p = c -> p_state p <> Waiting).
      { intros e p E P PC PW.
        assert (Z0 : existsb (fun e => existsb (fun p => (p_corr p =? c) && waiting p) (e_pend e)) (f_entries f) = true); [|congruence].
        apply existsb_exists. exists e. split; auto. apply existsb_exists. exists p. split; auto. unfold waiting. rewrite PC, PW, Z.eqb_refl. auto. }
      rewrite reply_ignored in H; auto. injection H as <- <-. split; auto.
      assert (MS : map (after_op (Reply c m)) (f_entries f) = f_entries f).
      { rewrite <- (map_id (f_entries f)) at 2. apply map_ext_in. intros e E. apply after_reply_other. eauto. }
      rewrite MS. pose proof (fi_open _ I) as O. clear - O. revert O. generalize (f_entries f). induction l as [|x l IH]; intros O; auto.
      simpl. assert (D : isdone x = false) by (apply O; simpl; auto). rewrite D. simpl. destruct IH as [I1 I2]; [intros; apply O; simpl; auto|].
      rewrite <- I1. split; auto.
  - simpl in H. destruct (fan_failed id f) as [f1 d1] eqn:E. injection H as -> ->. apply failed_spec in E as (E1&E2&E3&E4); auto.
Qed.

(* ------------------------------------------------------------ sequences of replies and failures *)
Definition follow st (os : list (fop M C)) : progress M := fold_left track os st.

Fixpoint first_reply (c : Z) (os : list (fop M C)) : option M :=
  match os with [] => None | Reply c' m :: r => if c' =? c then Some m else first_reply c r | _ :: r => first_reply c r end.

Lemma not_waiting_track st o c : (forall p, In p (fst st) -> p_corr p = c -> p_state p <> Waiting) ->
  (forall p, In p (fst (track st o)) -> p_corr p = c -> p_state p <> Waiting) /\ (forall m, In (c, m) (snd (track st o)) -> In (c, m) (snd st)).
Proof.
  intros H. destruct o as [|c' m'|id]; cbn [track].
  - auto.
  - destruct (existsb _ _) eqn:X; auto. cbn [fst snd]. split.
    + intros p P. apply in_map_iff in P as (q&<-&Q). destruct (p_corr q =? c'); cbn [set_state p_state p_corr]; [discriminate|auto].
    + intros m I. apply in_app_iff in I as [I|[I|[]]]; auto. injection I as -> ->. exfalso.
      apply existsb_exists in X as (p&P&X). apply andb_true_iff in X as [X1 X2]. apply Z.eqb_eq in X1. unfold waiting in X2.
      destruct (p_state p) eqn:W; try discriminate. eapply H; eauto.
  - cbn [fst snd]. split; auto. intros p P. apply in_map_iff in P as (q&<-&Q). destruct (p_id q =? id); cbn [set_state p_state p_corr]; [discriminate|auto].
Qed.

Lemma not_waiting_follow os : forall st c m, (forall p, In p (fst st) -> p_corr p = c -> p_state p <> Waiting) ->
  In (c, m) (snd (follow st os)) -> In (c, m) (snd st).
Proof.
  induction os as [|o os IH]; intros st c m H I; simpl in *; auto.
  destruct (not_waiting_track st o c H) as [H1 H2]. apply H2. apply IH; auto.
Qed.

Lemma recv_is_first os : forall st c m, ~ In c (map fst (snd st)) -> In (c, m) (snd (follow st os)) -> first_reply c os = Some m.
Proof.
  induction os as [|o os IH]; intros st c m N I; simpl in *.
  - exfalso. apply N. apply in_map_iff. exists (c, m). auto.
  - destruct o as [|c' m'|id]; cbn [track] in I.
    + eapply IH; eauto.
    + destruct (Z.eqb_spec c' c) as [->|NE].
      * destruct (existsb _ _) eqn:X.
        -- apply not_waiting_follow in I.
           ++ cbn [snd] in I. apply in_app_iff in I as [I|[I|[]]]; [|congruence]. exfalso. apply N. apply in_map_iff. exists (c, m). auto.
           ++ cbn [fst]. intros p P. apply in_map_iff in P as (q&<-&Q). destruct (Z.eqb_spec (p_corr q) c); cbn [set_state p_state p_corr]; [discriminate|tauto].
        -- exfalso. apply not_waiting_follow in I.
           ++ apply N. apply in_map_iff. exists (c, m). auto.
           ++ intros p P PC PW. assert (Y : existsb (fun p => (p_corr p =? c) && waiting p) (fst st) = true); [|congruence].
              apply existsb_exists. exists p. split; auto. unfold waiting. rewrite PC, PW, Z.eqb_refl. auto.
      * eapply IH; [|exact I]. destruct (existsb _ _); auto. cbn [snd]. rewrite map_app, in_app_iff. simpl. intros [A|[A|[]]]; auto.
    + eapply IH; [|exact I]. auto.
Qed.

Lemma follow_ids st os : map (fun p => (p_corr p, p_id p)) (fst (follow st os)) = map (fun p => (p_corr p, p_id p)) (fst st).
Proof. revert st. induction os as [|o os IH]; intros st; simpl; auto. rewrite IH. apply track_ids. Qed.

Lemma follow_pinv os : forall os0 st, Pinv os0 st -> Pinv (os0 ++ os) (follow st os).
Proof.
  induction os as [|o os IH]; intros os0 st P; simpl; [rewrite app_nil_r; auto|].
  replace (os0 ++ o :: os) with ((os0 ++ [o]) ++ os) by (rewrite <- app_assoc; auto). apply IH. apply Pinv_track. auto.
Qed.

Lemma follow_app st a b : follow st (a ++ b) = follow (follow st a) b.
Proof. apply fold_left_app. Qed.

(* a request that has been received has its first reply among the messages; one that failed was given up *)
Lemma follow_received ps os c i : NoDup (map fst ps) -> In (c, i) ps ->
  exists p, In p (fst (follow (begin ps) os)) /\ p_corr p = c /\ p_id p = i /\
    (p_state p = Received -> exists m, In (c, m) (snd (follow (begin ps) os)) /\ first_reply c os = Some m).
Proof.
  intros N I. assert (E := follow_ids (begin ps) os). rewrite begin_ids in E. rewrite <- E in I. apply in_map_iff in I as (p&EP&P). injection EP as <- <-.
  exists p. split; auto. split; auto. split; auto. intros R.
  destruct (follow_pinv os [] (begin ps) (Pinv_begin ps N)) as (P0&P1&P2&P3&P4). destruct (P4 p P R) as (m&J). exists m. split; auto.
  eapply recv_is_first; [|exact J]. simpl. auto.
Qed.

Lemma follow_messages ps os c m : NoDup (map fst ps) -> In (c, m) (snd (follow (begin ps) os)) ->
  In c (map fst ps) /\ In (Reply c m) os /\ first_reply c os = Some m.
Proof.
  intros N I. destruct (follow_pinv os [] (begin ps) (Pinv_begin ps N)) as (P0&P1&P2&P3&P4). pose proof (P2 c m I) as [A B].
  split; [|split; [exact B|eapply recv_is_first; [|exact I]; simpl; auto]].
  assert (E := follow_ids (begin ps) os). rewrite begin_ids in E. rewrite <- E, map_map. simpl. exact A.
Qed.

(* a request is still waited for exactly if it was neither answered nor given up *)
Lemma track_failed st o p : In p (fst (track st o)) -> p_state p = Failed -> (exists q, In q (fst st) /\ p_corr q = p_corr p /\ p_id q = p_id p /\ p_state q = Failed) \/ o = Fail (p_id p).
Proof.
  destruct o as [|c m|id]; cbn [track].
  - intros P F. left. exists p. auto.
  - destruct (existsb _ _); [|intros P F; left; exists p; auto]. cbn [fst]. intros P F. apply in_map_iff in P as (q&<-&Q).
    destruct (p_corr q =? c); cbn [set_state p_state p_corr p_id] in *; [discriminate|]. left. exists q. auto.
  - cbn [fst]. intros P F. apply in_map_iff in P as (q&<-&Q). destruct (Z.eqb_spec (p_id q) id); cbn [set_state p_id p_corr] in *; [right; congruence|left; exists q; auto].
Qed.

Lemma follow_failed os : forall st p, In p (fst (follow st os)) -> p_state p = Failed ->
  (exists q, In q (fst st) /\ p_corr q = p_corr p /\ p_id q = p_id p /\ p_state q = Failed) \/ In (Fail (p_id p)) os.
Proof.
  induction os as [|o os IH]; intros st p P F; simpl in *; [left; exists p; auto|].
  destruct (IH _ _ P F) as [(q&Q&QC&QI&QF)|I]; auto. destruct (track_failed _ _ _ Q QF) as [(z&Z1&Z2&Z3&Z4)|E].
  - left. exists z. split; auto. split; [congruence|]. split; [congruence|auto].
  - right. left. congruence.
Qed.

Lemma fail_sticks os : forall st p, In p (fst st) -> p_state p = Failed -> NoDup (map p_corr (fst st)) ->
  exists q, In q (fst (follow st os)) /\ p_corr q = p_corr p /\ p_state q = Failed.
Proof.
  induction os as [|o os IH]; intros st p P F N; simpl; [exists p; auto|].
  assert (X : exists q, In q (fst (track st o)) /\ p_corr q = p_corr p /\ p_state q = Failed).
  { destruct o as [|c m|id]; cbn [track].
    - exists p. auto.
    - destruct (existsb _ _) eqn:X; [|exists p; auto]. cbn [fst]. exists p. split; auto. apply in_map_iff. exists p. split; auto.
      destruct (Z.eqb_spec (p_corr p) c) as [E|]; auto. exfalso.
      apply existsb_exists in X as (q&Q&X). apply andb_true_iff in X as [X1 X2]. apply Z.eqb_eq in X1. unfold waiting in X2.
      assert (q = p). { assert (EC : p_corr q = p_corr p) by congruence. clear - N P Q EC. induction (fst st) as [|y l IH]; [destruct P|].
        inversion N; subst. destruct P as [->|P], Q as [->|Q]; auto; [exfalso; apply H1; rewrite <- EC; apply in_map; auto|exfalso; apply H1; rewrite EC; apply in_map; auto]. }
      subst q. rewrite F in X2. discriminate.
    - cbn [fst]. exists (if p_id p =? id then set_state Failed p else p). split; [apply in_map_iff; exists p; auto|]. destruct (p_id p =? id); auto. }
  destruct X as (q&Q&QC&QF). destruct (IH (track st o) q Q QF) as (z&Z1&Z2&Z3).
  - rewrite track_corrs. auto.
  - exists z. split; auto. split; [congruence|auto].
Qed.

End Track.

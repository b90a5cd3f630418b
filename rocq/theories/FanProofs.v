From Coq Require Import ZArith List Bool Lia Permutation.
From Verif Require Import FanModel FanSpec.
Import ListNotations.
Local Open Scope Z_scope.

Section Fan.
Context {M C : Type}.
Implicit Types (f : fan M C) (e : entry M C) (d : list (fired M C)).

Definition corrs (es : list (entry M C)) : list Z := flat_map (fun e => map p_corr (e_pend e)) es.

Record Finv (f : fan M C) : Prop := mk_Finv {
  fi_keys : NoDup (map e_key (f_entries f));
  fi_lt : forall e, In e (f_entries f) -> e_key e < f_next f;
  fi_corrs : NoDup (corrs (f_entries f));
  fi_lookup : forall c k, In (c, k) (f_lookup f) <->
     exists e p, In e (f_entries f) /\ e_key e = k /\ In p (e_pend e) /\ p_corr p = c /\ p_state p = Waiting;
  fi_open : forall e, In e (f_entries f) -> done (e_pend e) = false
}.

Lemma Finv_empty : Finv fan_empty.
Proof. split; simpl; try constructor; try tauto. intros (e&p&H&_). tauto. Qed.

Lemma done_false ps : done ps = false <-> exists p, In p ps /\ p_state p = Waiting.
Proof.
  unfold done. rewrite negb_false_iff, existsb_exists. split; intros (p&A&B); exists p; split; auto.
  - unfold waiting in B. destruct (p_state p); try discriminate; auto.
  - unfold waiting. rewrite B. auto.
Qed.

Lemma done_true ps : done ps = true <-> forall p, In p ps -> p_state p <> Waiting.
Proof.
  split.
  - intros H p P E. assert (done ps = false) by (apply done_false; exists p; auto). congruence.
  - intros H. destruct (done ps) eqn:E; auto. apply done_false in E as (p&A&B). exfalso. eapply H; eauto.
Qed.

Lemma complete_done (st : progress M) : complete st <-> done (fst st) = true.
Proof. rewrite done_true. unfold complete. tauto. Qed.

Lemma in_corrs es c : In c (corrs es) <-> exists e p, In e es /\ In p (e_pend e) /\ p_corr p = c.
Proof.
  unfold corrs. rewrite in_flat_map. split.
  - intros (e&E&H). apply in_map_iff in H as (p&A&B). exists e, p. auto.
  - intros (e&p&E&P&<-). exists e. split; auto. apply in_map; auto.
Qed.

Lemma nodup_app {A} (a b : list A) : NoDup (a ++ b) <-> NoDup a /\ NoDup b /\ forall x, In x a -> ~ In x b.
Proof.
  induction a as [|x a IH]; simpl.
  - split; [intros H; split; [constructor|split; [auto|tauto]]|tauto].
  - split.
    + intros H. inversion H; subst. apply IH in H3 as (A1&A2&A3). rewrite in_app_iff in H2.
      split; [constructor; tauto|split; [auto|]]. intros y [<-|Y]; auto.
    + intros (H1&H2&H3). inversion H1; subst. constructor.
      * rewrite in_app_iff. intros [X|X]; [auto|]. exact (H3 x (or_introl eq_refl) X).
      * apply IH. auto.
Qed.

(* a correlation belongs to one pending of one entry *)
Lemma corr_unique es e1 e2 p1 p2 : NoDup (corrs es) -> In e1 es -> In e2 es -> In p1 (e_pend e1) -> In p2 (e_pend e2) ->
  p_corr p1 = p_corr p2 -> e1 = e2 /\ p1 = p2.
Proof.
  induction es as [|e es IH]; intros N E1 E2 P1 P2 H; [destruct E1|]. unfold corrs in N. cbn [flat_map] in N.
  apply nodup_app in N as (N1&N2&N3).
  destruct E1 as [->|E1], E2 as [->|E2].
  - split; auto. clear - N1 P1 P2 H. induction (e_pend e2) as [|x l IH]; [destruct P1|]. simpl in N1. inversion N1; subst.
    destruct P1 as [->|P1], P2 as [->|P2]; auto.
    + exfalso. apply H2. rewrite H. apply in_map; auto.
    + exfalso. apply H2. rewrite <- H. apply in_map; auto.
  - exfalso. apply (N3 (p_corr p1)); [apply in_map; auto|]. rewrite H. apply in_corrs. exists e2, p2. auto.
  - exfalso. apply (N3 (p_corr p2)); [apply in_map; auto|]. rewrite <- H. apply in_corrs. exists e1, p1. auto.
  - apply IH; auto.
Qed.

Lemma key_unique es e1 e2 : NoDup (map e_key es) -> In e1 es -> In e2 es -> e_key e1 = e_key e2 -> e1 = e2.
Proof.
  induction es as [|e es IH]; intros N E1 E2 H; [destruct E1|]. simpl in N. inversion N; subst.
  destruct E1 as [->|E1], E2 as [->|E2]; auto.
  - exfalso. apply H2. rewrite H. apply (in_map (e_key (M:=M) (C:=C))); auto.
  - exfalso. apply H2. rewrite <- H. apply (in_map (e_key (M:=M) (C:=C))); auto.
Qed.

(* ------------------------------------------------------------ start *)
Lemma emplace_in c k l x : In x (lookup_emplace c k l) -> In x l \/ x = (c, k).
Proof. unfold lookup_emplace. destruct (lookup_has c l); [auto|]. rewrite in_app_iff. simpl. intuition. Qed.

Lemma emplace_fresh c k l : ~ In c (map fst l) -> lookup_emplace c k l = l ++ [(c, k)].
Proof.
  intros H. unfold lookup_emplace, lookup_has. destruct (existsb _ l) eqn:E; auto.
  apply existsb_exists in E as (x&A&B). apply Z.eqb_eq in B. exfalso. apply H. rewrite <- B. apply in_map; auto.
Qed.

Lemma emplaces_fresh k ps : forall l, NoDup (map p_corr ps) -> (forall p, In p ps -> ~ In (p_corr p) (map fst l)) ->
  fold_left (fun l p => lookup_emplace (p_corr p) k l) ps l = l ++ map (fun p => (p_corr p, k)) ps.
Proof.
  induction ps as [|p ps IH]; intros l N F; simpl; [rewrite app_nil_r; auto|]. simpl in N. inversion N; subst.
  rewrite emplace_fresh by (apply F; simpl; auto). rewrite IH; auto.
  - rewrite <- app_assoc. auto.
  - intros q Q. rewrite map_app, in_app_iff. simpl. intros [X|[X|[]]]; [apply (F q); simpl; auto|].
    apply H1. rewrite X. apply in_map; auto.
Qed.

Lemma begin_corrs ps : map p_corr (map (fun x => mk_p (fst x) (snd x) Waiting) ps) = map fst ps.
Proof. rewrite map_map. auto. Qed.

Lemma corrs_app a b : corrs (a ++ b) = corrs a ++ corrs b.
Proof. unfold corrs. apply flat_map_app. Qed.

Lemma start_spec f ps cb f' d : Finv f -> NoDup (map fst ps) -> (forall c, In c (map fst ps) -> ~ In c (corrs (f_entries f))) ->
  fan_start ps cb f = (f', d) ->
  Finv f' /\ f_next f' = f_next f + 1 /\
  if done (fst (begin (M:=M) ps)) then f_entries f' = f_entries f /\ d = [mk_fired (f_next f) cb [] (fst (begin (M:=M) ps))]
  else f_entries f' = f_entries f ++ [mk_e (f_next f) (fst (begin (M:=M) ps)) [] cb] /\ d = [].
Proof.
  intros I N F. unfold fan_start. cbn [e_pend e_key]. cbn [begin fst].
  destruct (done _) eqn:D; intros H; injection H as <- <-.
  - split; [|simpl; auto]. destruct I as [I1 I2 I3 I4 I5]. split; simpl; auto. intros e E. apply I2 in E. lia.
  - split; [|simpl; auto]. destruct I as [I1 I2 I3 I4 I5]. cbn [f_lookup f_entries f_next e_key e_pend].
    assert (LF : forall c, In c (map fst ps) -> ~ In c (map fst (f_lookup f))).
    { intros c X Y. apply in_map_iff in Y as ([c' k]&E&Y). simpl in E. subst c'. apply I4 in Y as (e&p&A1&A2&A3&A4&_).
      apply (F c X). apply in_corrs. exists e, p. auto. }
    rewrite emplaces_fresh; [|rewrite begin_corrs; auto|intros p P; apply LF; rewrite <- begin_corrs; apply in_map; auto].
    split; cbn [f_lookup f_entries f_next].
    + rewrite map_app. simpl. apply nodup_app. split; auto. split; [constructor; [simpl; tauto|constructor]|].
      intros k K [<-|[]]. apply in_map_iff in K as (e&E&K). apply I2 in K. lia.
    + intros e. rewrite in_app_iff. simpl. intros [E|[<-|[]]]; [apply I2 in E; lia|simpl; lia].
    + rewrite corrs_app. unfold corrs at 2. simpl. rewrite app_nil_r, begin_corrs. apply nodup_app. split; auto. split; auto.
      intros c X Y. exact (F c Y X).
    + intros c k. rewrite in_app_iff, I4. split.
      * intros [(e&p&A1&A2&A3&A4&A5)|H].
        -- exists e, p. rewrite in_app_iff. auto 10.
        -- apply in_map_iff in H as (p&E&P). injection E as <- <-. eexists _, p. rewrite in_app_iff. simpl.
           split; [right; left; reflexivity|]. simpl. split; auto. split; auto. split; auto.
           apply in_map_iff in P as (x&<-&_). auto.
      * intros (e&p&A1&A2&A3&A4&A5). apply in_app_iff in A1 as [A1|[<-|[]]].
        -- left. exists e, p. auto.
        -- right. simpl in *. subst. apply (in_map (fun p => (p_corr p, f_next f))) in A3. auto.
    + intros e. rewrite in_app_iff. simpl. intros [E|[<-|[]]]; auto.
Qed.

(* ------------------------------------------------------------ reply *)
Definition received_at (c : Z) (ps : list pending) : list pending := map (fun p => if p_corr p =? c then set_state Received p else p) ps.

Lemma mark_received_map c ps : NoDup (map p_corr ps) -> In c (map p_corr ps) -> mark_received c ps = Some (received_at c ps).
Proof.
  induction ps as [|p ps IH]; intros N X; [destruct X|]. simpl in N. inversion N; subst. cbn [mark_received received_at map].
  destruct (Z.eqb_spec (p_corr p) c) as [E|E].
  - f_equal. f_equal. rewrite <- (map_id ps) at 1. apply map_ext_in. intros q Q. destruct (Z.eqb_spec (p_corr q) c); auto.
    exfalso. apply H1. rewrite E, <- e. apply in_map; auto.
  - rewrite IH; auto. destruct X; [congruence|auto].
Qed.

Lemma received_corrs c ps : map p_corr (received_at c ps) = map p_corr ps.
Proof. unfold received_at. rewrite map_map. apply map_ext. intros p. destruct (_ =? _); auto. Qed.

Lemma received_in c ps p : In p (received_at c ps) -> p_state p = Waiting -> In p ps /\ p_corr p <> c.
Proof.
  unfold received_at. intros H W. apply in_map_iff in H as (q&E&Q). destruct (Z.eqb_spec (p_corr q) c); subst; [simpl in W; discriminate|auto].
Qed.

Lemma received_keep c ps p : In p ps -> p_corr p <> c -> In p (received_at c ps).
Proof. intros H N. unfold received_at. apply in_map_iff. exists p. destruct (Z.eqb_spec (p_corr p) c); tauto. Qed.

Lemma corrs_map_same (g : entry M C -> entry M C) es : (forall e, In e es -> map p_corr (e_pend (g e)) = map p_corr (e_pend e)) ->
  corrs (map g es) = corrs es.
Proof.
  unfold corrs. induction es as [|e es IH]; intros H; simpl; auto. rewrite (H e) by (simpl; auto). rewrite IH; auto. intros; apply H; simpl; auto.
Qed.

Lemma corrs_filter_nodup (p : entry M C -> bool) es : NoDup (corrs es) -> NoDup (corrs (filter p es)).
Proof.
  unfold corrs. induction es as [|e es IH]; simpl; intros N; auto. apply nodup_app in N as (N1&N2&N3). destruct (p e); auto. simpl.
  apply nodup_app. split; auto. split; auto. intros x X Y. apply (N3 x X). apply in_flat_map in Y as (e'&A&B).
  apply in_flat_map. exists e'. apply filter_In in A. tauto.
Qed.

Lemma nodup_map_filter {A B} (g : A -> B) (p : A -> bool) l : NoDup (map g l) -> NoDup (map g (filter p l)).
Proof.
  induction l as [|x l IH]; simpl; intros N; auto. inversion N; subst. destruct (p x); auto. simpl. constructor; auto.
  intros H. apply H1. apply in_map_iff in H as (y&E&Y). apply filter_In in Y. rewrite <- E. apply in_map. tauto.
Qed.

Lemma lookup_erase_in c x l : In x (lookup_erase c l) <-> In x l /\ fst x <> c.
Proof. unfold lookup_erase. rewrite filter_In, negb_true_iff, Z.eqb_neq. tauto. Qed.

Lemma find_lookup_none c (l : list (Z * Z)) : find (fun x => fst x =? c) l = None -> forall k, ~ In (c, k) l.
Proof. intros H k K. apply (find_none _ _ H) in K. simpl in K. rewrite Z.eqb_refl in K. discriminate. Qed.

(* the reply to a request that is not waited for has no effect *)
Lemma reply_ignored f c m : Finv f -> (forall e p, In e (f_entries f) -> In p (e_pend e) -> p_corr p = c -> p_state p <> Waiting) ->
  fan_reply c m f = Some (f, []).
Proof.
  intros I H. unfold fan_reply. destruct (find _ (f_lookup f)) as [[c' k]|] eqn:F; auto.
  apply find_some in F as [F1 F2]. simpl in F2. apply Z.eqb_eq in F2. subst c'.
  apply (fi_lookup _ I) in F1 as (e&p&A1&A2&A3&A4&A5). exfalso. eapply H; eauto.
Qed.

Lemma find_key es e : NoDup (map e_key es) -> In e es -> find (fun x : entry M C => e_key x =? e_key e) es = Some e.
Proof.
  intros N E. destruct (find _ es) as [x|] eqn:F.
  - apply find_some in F as [F1 F2]. apply Z.eqb_eq in F2. f_equal. eapply key_unique; eauto.
  - apply (find_none _ _ F) in E. rewrite Z.eqb_refl in E. discriminate.
Qed.

Lemma reply_counts f c m e p : Finv f -> In e (f_entries f) -> In p (e_pend e) -> p_corr p = c -> p_state p = Waiting ->
  exists f' d, fan_reply c m f = Some (f', d) /\ Finv f' /\ f_next f' = f_next f /\
   let e' := mk_e (e_key e) (received_at c (e_pend e)) (e_recv e ++ [(c, m)]) (e_call e) in
   if done (received_at c (e_pend e)) then f_entries f' = filter (fun x => negb (e_key x =? e_key e)) (f_entries f) /\ d = [fire e']
   else f_entries f' = map (fun x => if e_key x =? e_key e then e' else x) (f_entries f) /\ d = [].
Proof.
  intros I E P PC PW. unfold fan_reply.
  assert (L : In (c, e_key e) (f_lookup f)) by (apply (fi_lookup _ I); exists e, p; auto).
  destruct (find _ (f_lookup f)) as [[c' k]|] eqn:F; [|exfalso; eapply find_lookup_none; eauto].
  apply find_some in F as [F1 F2]. simpl in F2. apply Z.eqb_eq in F2. subst c'.
  assert (k = e_key e).
  { apply (fi_lookup _ I) in F1 as (e2&p2&A1&A2&A3&A4&A5).
    destruct (corr_unique _ e e2 p p2 (fi_corrs _ I) E A1 P A3) as [<- _]; congruence. }
  subst k. rewrite find_key by (auto; apply (fi_keys _ I)).
  assert (ND : NoDup (map p_corr (e_pend e))).
  { pose proof (fi_corrs _ I) as N. clear - N E. induction (f_entries f) as [|x l IH]; [destruct E|]. unfold corrs in N. simpl in N.
    apply nodup_app in N as (N1&N2&_). destruct E as [->|E]; auto. }
  rewrite mark_received_map by (auto; rewrite <- PC; apply in_map; auto).
  set (e' := mk_e (e_key e) (received_at c (e_pend e)) (e_recv e ++ [(c, m)]) (e_call e)).
  destruct I as [I1 I2 I3 I4 I5].
  destruct (done (received_at c (e_pend e))) eqn:D; eexists _, _; (split; [reflexivity|]); (split; [|simpl; auto]).
  - split; cbn [f_entries f_next f_lookup].
    + apply nodup_map_filter; auto.
    + intros x X. apply filter_In in X as [X _]. auto.
    + apply corrs_filter_nodup; auto.
    + intros c' k. rewrite lookup_erase_in, I4. simpl. split.
      * intros [(x&q&A1&A2&A3&A4&A5) NE]. exists x, q. split; auto. apply filter_In. split; auto.
        apply negb_true_iff, Z.eqb_neq. intros EK. assert (x = e) by (eapply key_unique; eauto). subst x.
        rewrite done_true in D. apply (D q); auto. apply received_keep; auto. congruence.
      * intros (x&q&A1&A2&A3&A4&A5). apply filter_In in A1 as [A1 KN]. apply negb_true_iff, Z.eqb_neq in KN.
        split; [exists x, q; auto|]. intros ->. destruct (corr_unique _ x e q p I3 A1 E A3 P) as [-> _]; congruence.
    + intros x X. apply filter_In in X as [X _]. auto.
  - split; cbn [f_entries f_next f_lookup].
    + rewrite map_map. rewrite (map_ext _ (e_key (M:=M) (C:=C))); auto. intros x. destruct (Z.eqb_spec (e_key x) (e_key e)); auto.
    + intros x X. apply in_map_iff in X as (y&<-&Y). destruct (_ =? _); simpl; auto.
    + rewrite corrs_map_same; auto. intros x X. destruct (Z.eqb_spec (e_key x) (e_key e)) as [EK|]; auto.
      assert (x = e) by (eapply key_unique; eauto). subst x. apply received_corrs.
    + intros c' k. rewrite lookup_erase_in, I4. simpl. split.
      * intros [(x&q&A1&A2&A3&A4&A5) NE]. destruct (Z.eqb_spec (e_key x) (e_key e)) as [EK|EK].
        -- assert (x = e) by (eapply key_unique; eauto). subst x. exists e', q. split.
           ++ apply in_map_iff. exists e. rewrite Z.eqb_refl. auto.
           ++ simpl. split; auto. split; [apply received_keep; [auto|congruence]|auto].
        -- exists x, q. split; auto. apply in_map_iff. exists x. destruct (Z.eqb_spec (e_key x) (e_key e)); tauto.
      * intros (x&q&A1&A2&A3&A4&A5). apply in_map_iff in A1 as (y&EY&Y). destruct (Z.eqb_spec (e_key y) (e_key e)) as [EK|EK].
        -- subst x. assert (y = e) by (eapply key_unique; eauto). subst y. simpl in A3. apply received_in in A3 as [A3 NE]; auto.
           split; [exists e, q; auto|]. subst c'. auto.
        -- subst y. split; [exists x, q; auto|]. intros ->. destruct (corr_unique _ x e q p I3 Y E A3 P) as [-> _]; congruence.
    + intros x X. apply in_map_iff in X as (y&<-&Y). destruct (_ =? _); auto.
Qed.

(* ------------------------------------------------------------ failed *)
Definition fail_e (id : Z) (e : entry M C) : entry M C := mk_e (e_key e) (mark_failed id (e_pend e)) (e_recv e) (e_call e).

Lemma failed_nil id ps : failed_corrs id ps = [] -> mark_failed id ps = ps.
Proof.
  unfold failed_corrs, mark_failed. induction ps as [|p ps IH]; auto. cbn [filter map]. destruct (p_id p =? id); [discriminate|].
  intros H. f_equal. auto.
Qed.

Lemma erases_in cs x : forall l, In x (fold_left (fun l c => lookup_erase c l) cs l) <-> In x l /\ ~ In (fst x) cs.
Proof.
  induction cs as [|c cs IH]; intros l; simpl; [tauto|]. rewrite IH, lookup_erase_in. split.
  - intros [[A B] D]. split; auto. intros [E|E]; [congruence|auto].
  - intros [A B]. split; [split; [auto|]|]; intuition.
Qed.

Lemma fail_entries_spec id es : forall l l' es' d, (forall e, In e es -> done (e_pend e) = false) ->
  fail_entries id l es = (l', es', d) ->
  es' = filter (fun e => negb (done (e_pend e))) (map (fail_e id) es) /\
  d = map fire (filter (fun e => done (e_pend e)) (map (fail_e id) es)) /\
  (forall x, In x l' <-> In x l /\ forall e p, In e es -> In p (e_pend e) -> p_id p = id -> p_corr p <> fst x).
Proof.
  induction es as [|e es IH]; intros l l' es' d O H.
  - simpl in H. injection H as <- <- <-. simpl. split; auto. split; auto. intros x. split; [intros X; split; [auto|tauto]|tauto].
  - cbn [fail_entries] in H. unfold fail_entry in H.
    assert (O2 : forall x, In x es -> done (e_pend x) = false) by (intros; apply O; simpl; auto).
    pose proof (O e (or_introl eq_refl)) as OE.
    destruct (failed_corrs id (e_pend e)) as [|c0 cs0] eqn:FC.
    + destruct (fail_entries id l es) as [[l2 r'] d2] eqn:R. injection H as <- <- <-. apply IH in R as (R1&R2&R3); auto.
      assert (FE : fail_e id e = e) by (unfold fail_e; rewrite failed_nil by auto; destruct e; auto).
      cbn [map filter]. rewrite FE, OE. cbn [negb]. split; [f_equal; auto|]. split; [auto|].
      intros x. rewrite R3. split; intros [A B]; split; auto.
      * intros y p [<-|Y] P I; [|eapply B; eauto].
        exfalso. assert (X : In (p_corr p) (failed_corrs id (e_pend e))).
        { unfold failed_corrs. apply in_map. apply filter_In. split; auto. apply Z.eqb_eq; auto. }
        rewrite FC in X. destruct X.
      * intros y p Y. apply B. simpl. auto.
    + rewrite <- FC in H.
      assert (LX : forall l x, In x (fold_left (fun l c => lookup_erase c l) (failed_corrs id (e_pend e)) l) <->
                 In x l /\ forall p, In p (e_pend e) -> p_id p = id -> p_corr p <> fst x).
      { intros l0 x. rewrite erases_in. split; intros [A B]; split; auto.
        - intros p P I E. apply B. rewrite <- E. unfold failed_corrs. apply in_map. apply filter_In. split; auto. apply Z.eqb_eq; auto.
        - intros X. unfold failed_corrs in X. apply in_map_iff in X as (p&E&P). apply filter_In in P as [P Q]. apply Z.eqb_eq in Q. eapply B; eauto. }
      cbn [e_pend] in H. destruct (done (mark_failed id (e_pend e))) eqn:D;
      destruct (fail_entries id (fold_left (fun l c => lookup_erase c l) (failed_corrs id (e_pend e)) l) es) as [[l2 r'] d2] eqn:R;
      injection H as <- <- <-; apply IH in R as (R1&R2&R3); auto; cbn [map filter].
      * assert (DE : done (e_pend (fail_e id e)) = true) by exact D. rewrite DE. cbn [negb map app].
        split; auto. split; [rewrite R2; reflexivity|].
        intros x. rewrite R3, LX. split.
        -- intros [[A B] G]. split; auto. intros y p [<-|Y]; eauto.
        -- intros [A B]. split; [split; [auto|]|]; intros; eapply B; simpl; eauto.
      * assert (DE : done (e_pend (fail_e id e)) = false) by exact D. rewrite DE. cbn [negb map app].
        split; [rewrite R1; reflexivity|]. split; [auto|].
        intros x. rewrite R3, LX. split.
        -- intros [[A B] G]. split; auto. intros y p [<-|Y]; eauto.
        -- intros [A B]. split; [split; [auto|]|]; intros; eapply B; simpl; eauto.
Qed.

Lemma failed_corrs_same id ps : map p_corr (mark_failed id ps) = map p_corr ps.
Proof. unfold mark_failed. rewrite map_map. apply map_ext. intros p. destruct (_ =? _); auto. Qed.

Lemma failed_spec f id f' d : Finv f -> fan_failed id f = (f', d) ->
  Finv f' /\ f_next f' = f_next f /\
  f_entries f' = filter (fun e => negb (done (e_pend e))) (map (fail_e id) (f_entries f)) /\
  d = map fire (filter (fun e => done (e_pend e)) (map (fail_e id) (f_entries f))).
Proof.
  intros I. unfold fan_failed. destruct (fail_entries id (f_lookup f) (f_entries f)) as [[l es] d0] eqn:F. intros H. injection H as <- <-.
  apply fail_entries_spec in F as (F1&F2&F3); [|apply (fi_open _ I)]. split; [|simpl; auto]. destruct I as [I1 I2 I3 I4 I5].
  split; cbn [f_entries f_next f_lookup]; rewrite ?F1.
  - apply nodup_map_filter. rewrite map_map. auto.
  - intros x X. apply filter_In in X as [X _]. apply in_map_iff in X as (y&<-&Y). simpl. auto.
  - apply corrs_filter_nodup. rewrite corrs_map_same; auto. intros. apply failed_corrs_same.
  - intros c k. rewrite F3, I4. simpl. split.
    + intros [(e&p&A1&A2&A3&A4&A5) B]. exists (fail_e id e), p.
      assert (NI : p_id p <> id) by (intros E; eapply B; eauto).
      assert (PI : In p (e_pend (fail_e id e))).
      { simpl. unfold mark_failed. apply in_map_iff. exists p. destruct (Z.eqb_spec (p_id p) id); tauto. }
      split; [|auto]. apply filter_In. split; [apply in_map; auto|]. apply negb_true_iff, done_false. exists p. auto.
    + intros (e&p&A1&A2&A3&A4&A5). apply filter_In in A1 as [A1 _]. apply in_map_iff in A1 as (y&<-&Y). simpl in *.
      unfold mark_failed in A3. apply in_map_iff in A3 as (q&EQ&Q). destruct (Z.eqb_spec (p_id q) id) as [QI|QI].
      * subst p. simpl in A5. discriminate.
      * subst q. split; [exists y, p; auto|]. intros e' p' E' P' PI EC. rewrite <- A4 in EC.
        destruct (corr_unique _ e' y p' p I3 E' Y P' Q EC) as [_ ->]. auto.
  - intros e E. apply filter_In in E as [_ E]. apply negb_true_iff in E. auto.
Qed.

(* ------------------------------------------------------------ one fan-out among others *)
Definition live (k : Z) (st : progress M) (cb : C) f : Prop := In (mk_e k (fst st) (snd st) cb) (f_entries f).
Definition gone (k : Z) f : Prop := k < f_next f /\ forall e, In e (f_entries f) -> e_key e <> k.

Definition fresh (o : fop M C) f : Prop :=
  match o with
  | Start ps _ => NoDup (map fst ps) /\ forall c, In c (map fst ps) -> ~ In c (corrs (f_entries f))
  | _ => True
  end.

Lemma of_key_map k es : of_key k (map fire es) = map fire (filter (fun e => e_key e =? k) es).
Proof. unfold of_key. induction es as [|e es IH]; auto. cbn [map filter]. destruct (Z.eqb_spec (e_key e) k); unfold fire at 1; cbn [d_key]; destruct (Z.eqb_spec (e_key e) k); try congruence; simpl; rewrite IH; auto. Qed.

Lemma filter_key_one (p : entry M C -> bool) es e : NoDup (map e_key es) -> In e es ->
  filter (fun x => e_key x =? e_key e) (filter p es) = if p e then [e] else [].
Proof.
  induction es as [|x es IH]; intros N E; [destruct E|]. simpl in N. inversion N; subst. cbn [filter].
  destruct E as [->|E].
  - assert (Z0 : filter (fun x => e_key x =? e_key e) (filter p es) = []).
    { clear - H1. induction es as [|y l IH]; auto. cbn [filter]. simpl in H1. destruct (p y); auto. cbn [filter].
      destruct (Z.eqb_spec (e_key y) (e_key e)); [exfalso; apply H1; auto|]. apply IH. tauto. }
    destruct (p e); cbn [filter]; rewrite ?Z.eqb_refl, Z0; auto.
  - assert (KE : e_key x <> e_key e) by (intros EK; apply H1; rewrite EK; apply (in_map (e_key (M:=M) (C:=C))); auto).
    destruct (p x); cbn [filter]; auto. destruct (Z.eqb_spec (e_key x) (e_key e)); [congruence|auto].
Qed.

Lemma of_key_other k d : (forall x, In x d -> d_key x <> k) -> of_key k d = [].
Proof.
  unfold of_key. induction d as [|x d IH]; intros H; auto. cbn [filter]. destruct (Z.eqb_spec (d_key x) k).
  - exfalso. eapply H; simpl; eauto.
  - apply IH. intros; apply H; simpl; auto.
Qed.

(* the invariant is kept, and nothing fails *)
Lemma step_total f o : Finv f -> fresh o f -> exists f' d, fan_step f o = Some (f', d) /\ Finv f'.
Proof.
  intros I F. destruct o as [ps cb|c m|id]; simpl.
  - destruct (fan_start ps cb f) as [f' d] eqn:E. exists f', d. split; auto. eapply start_spec; eauto; apply F.
  - destruct (existsb (fun e => existsb (fun p => (p_corr p =? c) && waiting p) (e_pend e)) (f_entries f)) eqn:X.
    + apply existsb_exists in X as (e&E&X). apply existsb_exists in X as (p&P&X). apply andb_true_iff in X as [X1 X2].
      apply Z.eqb_eq in X1. unfold waiting in X2. destruct (p_state p) eqn:W; try discriminate.
      destruct (reply_counts f c m e p I E P X1 W) as (f'&d&A&B&_). eauto.
    + exists f, []. split; auto. apply reply_ignored; auto. intros e p E P PC PW.
      assert (Y : existsb (fun e => existsb (fun p => (p_corr p =? c) && waiting p) (e_pend e)) (f_entries f) = true); [|congruence].
      apply existsb_exists. exists e. split; auto. apply existsb_exists. exists p. split; auto. unfold waiting. rewrite PC, PW, Z.eqb_refl. auto.
  - destruct (fan_failed id f) as [f' d] eqn:E. exists f', d. split; auto. eapply failed_spec; eauto.
Qed.

Lemma step_next f o f' d : fan_step f o = Some (f', d) -> f_next f' = f_next f + match o with Start _ _ => 1 | _ => 0 end.
Proof.
  destruct o as [ps cb|c m|id]; simpl.
  - unfold fan_start. destruct (done _); intros H; injection H as <- <-; auto.
  - unfold fan_reply. destruct (find _ _) as [[c' k]|]; [|intros H; injection H as <- <-; lia].
    destruct (find _ _); [|discriminate]. destruct (mark_received _ _); [|discriminate].
    destruct (done _); intros H; injection H as <- <-; simpl; lia.
  - unfold fan_failed. destruct (fail_entries _ _ _) as [[l es] d0]. intros H. injection H as <- <-. simpl. lia.
Qed.

Lemma gone_step k f o f' d : Finv f -> fresh o f -> gone k f -> fan_step f o = Some (f', d) -> gone k f' /\ of_key k d = [].
Proof.
  intros I F [G1 G2] H. pose proof (step_next _ _ _ _ H) as N. destruct o as [ps cb|c m|id]; simpl in H.
  - destruct (fan_start ps cb f) as [f1 d1] eqn:E. injection H as -> ->. destruct F as [F1 F2]. apply start_spec in E as (E1&E2&E3); auto.
    destruct (done _); destruct E3 as [E3 ->]; (split; [split; [lia|]|]); rewrite ?E3; auto.
    + apply of_key_other. intros x [<-|[]]. simpl. lia.
    + intros e. rewrite in_app_iff. simpl. intros [X|[<-|[]]]; auto. simpl. lia.
  - unfold fan_reply in H. destruct (find _ (f_lookup f)) as [[c' k']|]; [|injection H as <- <-; split; [split; auto|auto]].
    destruct (find _ (f_entries f)) as [e|] eqn:FE; [|discriminate]. apply find_some in FE as [FE1 FE2]. apply Z.eqb_eq in FE2. subst k'.
    destruct (mark_received _ _); [|discriminate]. pose proof (G2 e FE1) as KE.
    destruct (done _); injection H as <- <-; (split; [split; [simpl in *; lia|]|]); cbn [f_entries].
    + intros x X. apply filter_In in X as [X _]. auto.
    + apply of_key_other. intros x [<-|[]]. simpl. auto.
    + intros x X. apply in_map_iff in X as (y&<-&Y). destruct (_ =? _); simpl; auto.
    + auto.
  - destruct (fan_failed id f) as [f1 d1] eqn:E. injection H as -> ->. apply failed_spec in E as (E1&E2&E3&E4); auto. split; [split; [lia|]|].
    + rewrite E3. intros e X. apply filter_In in X as [X _]. apply in_map_iff in X as (y&<-&Y). simpl. auto.
    + subst d. apply of_key_other. intros x X. apply in_map_iff in X as (y&<-&Y). apply filter_In in Y as [Y _].
      apply in_map_iff in Y as (z&<-&W). simpl. auto.
Qed.

Lemma live_step k st cb f o f' d : Finv f -> fresh o f -> live k st cb f -> fan_step f o = Some (f', d) ->
  if done (fst (track st o)) then gone k f' /\ of_key k d = [mk_fired k cb (snd (track st o)) (fst (track st o))]
  else live k (track st o) cb f' /\ of_key k d = [].
Proof.
  intros I F L H. pose proof (step_next _ _ _ _ H) as N. pose proof (fi_open _ I _ L) as O. pose proof (fi_lt _ I _ L) as LT. simpl in O, LT.
  set (e0 := mk_e k (fst st) (snd st) cb) in *. destruct o as [ps cb'|c m|id].
  - cbn [track]. rewrite O. simpl in H. destruct (fan_start ps cb' f) as [f1 d1] eqn:E. injection H as -> ->. destruct F as [F1 F2].
    apply start_spec in E as (E1&E2&E3); auto. destruct (done _); destruct E3 as [E3 ->].
    + split; [unfold live; rewrite E3; auto|]. apply of_key_other. intros x [<-|[]]. simpl. lia.
    + split; [unfold live; rewrite E3, in_app_iff; auto|auto].
  - cbn [fan_step] in H. cbn [track].
    destruct (existsb (fun p => (p_corr p =? c) && waiting p) (fst st)) eqn:X.
    + apply existsb_exists in X as (p&P&X). apply andb_true_iff in X as [X1 X2]. apply Z.eqb_eq in X1.
      unfold waiting in X2. destruct (p_state p) eqn:W; try discriminate.
      destruct (reply_counts f c m e0 p I L P X1 W) as (f1&d1&A&B&B2&B3). rewrite A in H. injection H as -> ->.
      cbn [fst snd]. fold (received_at c (fst st)). cbn [e_pend e0 e_key e_recv e_call] in B3.
      destruct (done (received_at c (fst st))); destruct B3 as [B3 ->].
      * split; [split; [lia|]|].
        -- rewrite B3. intros e E. apply filter_In in E as [_ E]. apply negb_true_iff, Z.eqb_neq in E. auto.
        -- unfold of_key. simpl. rewrite Z.eqb_refl. auto.
      * split; auto. unfold live. rewrite B3. apply in_map_iff. exists e0. simpl. rewrite Z.eqb_refl. auto.
    + rewrite O.
      assert (NW : forall p, In p (fst st) -> p_corr p = c -> p_state p <> Waiting).
      { intros p P PC PW. assert (Y : existsb (fun p => (p_corr p =? c) && waiting p) (fst st) = true); [|congruence].
        apply existsb_exists. exists p. split; auto. unfold waiting. rewrite PC, PW, Z.eqb_refl. auto. }
      destruct (existsb (fun e => existsb (fun p => (p_corr p =? c) && waiting p) (e_pend e)) (f_entries f)) eqn:Y.
      * apply existsb_exists in Y as (e&E&Y). apply existsb_exists in Y as (p&P&Y). apply andb_true_iff in Y as [Y1 Y2].
        apply Z.eqb_eq in Y1. unfold waiting in Y2. destruct (p_state p) eqn:W; try discriminate.
        destruct (reply_counts f c m e p I E P Y1 W) as (f1&d1&A&B&B2&B3). rewrite A in H. injection H as -> ->.
        assert (KE : e_key e <> k).
        { intros EK. assert (e = e0) by (eapply key_unique; eauto; apply (fi_keys _ I)). subst e. exact (NW p P Y1 W). }
        cbv zeta in B3. destruct (done (received_at c (e_pend e))); destruct B3 as [B3 ->].
        -- split; [unfold live; rewrite B3; apply filter_In; split; auto; apply negb_true_iff, Z.eqb_neq; simpl; auto|].
           apply of_key_other. intros x [<-|[]]. simpl. auto.
        -- split; auto. unfold live. rewrite B3. apply in_map_iff. exists e0. simpl. destruct (Z.eqb_spec k (e_key e)); [congruence|auto].
      * rewrite reply_ignored in H; auto; [injection H as <- <-; auto|].
        intros e p E P PC PW.
        assert (Z0 : existsb (fun e => existsb (fun p => (p_corr p =? c) && waiting p) (e_pend e)) (f_entries f) = true); [|congruence].
        apply existsb_exists. exists e. split; auto. apply existsb_exists. exists p. split; auto. unfold waiting. rewrite PC, PW, Z.eqb_refl. auto.
  - simpl in H. destruct (fan_failed id f) as [f1 d1] eqn:E. injection H as -> ->. pose proof E as E0. apply failed_spec in E as (E1&E2&E3&E4); auto.
    cbn [track fst snd]. fold (mark_failed id (fst st)).
    assert (IN : In (fail_e id e0) (map (fail_e id) (f_entries f))) by (apply in_map; auto).
    assert (NK : NoDup (map e_key (map (fail_e id) (f_entries f)))) by (rewrite map_map; apply (fi_keys _ I)).
    assert (OK : of_key k d = if done (e_pend (fail_e id e0)) then [fire (fail_e id e0)] else []).
    { subst d. rewrite of_key_map. change k with (e_key (fail_e id e0)).
      rewrite (filter_key_one (fun e => done (e_pend e)) _ (fail_e id e0) NK IN). destruct (done (e_pend (fail_e id e0))); auto. }
    cbn [fail_e e_pend e0] in OK. destruct (done (mark_failed id (fst st))) eqn:D; rewrite OK.
    + split; auto. split; [lia|]. rewrite E3. intros e X. apply filter_In in X as [X Y]. intros EK.
      assert (e = fail_e id e0) by (eapply key_unique; eauto). subst e. simpl in Y. rewrite D in Y. discriminate.
    + split; auto. unfold live. rewrite E3. apply filter_In. split; [exact IN|]. assert (DE : done (e_pend (fail_e id e0)) = false) by exact D. rewrite <- DE in D. change (negb (done (e_pend (fail_e id e0))) = true). rewrite DE. auto.
Qed.

(* ------------------------------------------------------------ histories *)
Lemma track_corrs st (o : fop M C) : map p_corr (fst (track st o)) = map p_corr (fst st).
Proof.
  destruct o; auto; cbn [track].
  - destruct (existsb _ _); auto. apply (received_corrs c (fst st)).
  - apply (failed_corrs_same id (fst st)).
Qed.

Definition known_corrs (cs : list Z) f : Prop := forall c, In c (corrs (f_entries f)) -> In c cs.

Lemma step_known f o f' d cs : Finv f -> fresh o f -> known_corrs cs f -> fan_step f o = Some (f', d) -> known_corrs (cs ++ started [o]) f'.
Proof.
  intros I F K H c X. apply in_app_iff. destruct o as [ps cb|c0 m|id]; simpl in H.
  - destruct (fan_start ps cb f) as [f1 d1] eqn:E. injection H as -> ->. destruct F as [F1 F2]. apply start_spec in E as (E1&E2&E3); auto.
    destruct (done _); destruct E3 as [E3 _]; rewrite E3 in X; auto.
    rewrite corrs_app, in_app_iff in X. destruct X as [X|X]; auto. right. unfold corrs in X. simpl in X. rewrite app_nil_r, begin_corrs in X.
    simpl. rewrite app_nil_r. auto.
  - left. apply K. apply in_corrs in X as (e&p&A1&A2&A3).
    unfold fan_reply in H. destruct (find _ (f_lookup f)) as [[c' k']|]; [|injection H as <- <-; apply in_corrs; eauto].
    destruct (find _ (f_entries f)) as [e1|] eqn:FE; [|discriminate]. apply find_some in FE as [FE1 FE2]. apply Z.eqb_eq in FE2. subst k'.
    destruct (mark_received c0 (e_pend e1)) as [ps|] eqn:MR; [|discriminate].
    assert (MC : map p_corr ps = map p_corr (e_pend e1)).
    { clear - MR. revert ps MR. induction (e_pend e1) as [|q l IH]; simpl; intros ps H; [discriminate|].
      destruct (p_corr q =? c0); [injection H as <-; auto|]. destruct (mark_received c0 l) as [r|]; [|discriminate]. injection H as <-. simpl. f_equal. auto. }
    destruct (done _); injection H as <- <-; simpl in A1.
    + apply filter_In in A1 as [A1 _]. apply in_corrs. eauto.
    + apply in_map_iff in A1 as (y&EY&Y). destruct (e_key y =? e_key e1); [|subst y; apply in_corrs; eauto].
      subst e. simpl in A2. assert (Q : In c (map p_corr (e_pend e1))) by (rewrite <- MC, <- A3; apply in_map; auto).
      apply in_map_iff in Q as (q&Q1&Q2). apply in_corrs. eauto.
  - left. apply K. destruct (fan_failed id f) as [f1 d1] eqn:E. injection H as -> ->. apply failed_spec in E as (E1&E2&E3&E4); auto.
    rewrite E3 in X. apply in_corrs in X as (e&p&A1&A2&A3). apply filter_In in A1 as [A1 _]. apply in_map_iff in A1 as (y&<-&Y). simpl in A2.
    assert (Q : In c (map p_corr (e_pend y))) by (rewrite <- (failed_corrs_same id), <- A3; apply in_map; auto).
    apply in_map_iff in Q as (q&Q1&Q2). apply in_corrs. eauto.
Qed.

Lemma fresh_next cs o os f : NoDup (cs ++ started (o :: os)) -> known_corrs cs f -> fresh o f.
Proof.
  intros N K. destruct o as [ps cb| |]; simpl; auto. apply nodup_app in N as (N1&N2&N3).
  unfold started in N2, N3. simpl in N2, N3. apply nodup_app in N2 as (N2&_&_). split; auto.
  intros c X Y. apply (N3 c (K c Y)). apply in_app_iff. auto.
Qed.

Lemma started_cons o os : started (M:=M) (C:=C) (o :: os) = started [o] ++ started os.
Proof. unfold started. simpl. rewrite app_nil_r. auto. Qed.

Lemma run_total os : forall cs f, Finv f -> known_corrs cs f -> NoDup (cs ++ started os) ->
  exists f' d, fan_run f os = Some (f', d) /\ Finv f' /\ known_corrs (cs ++ started os) f' /\ f_next f' = f_next f + starts os.
Proof.
  induction os as [|o os IH]; intros cs f I K N.
  - exists f, []. simpl. rewrite app_nil_r. split; auto. split; auto. split; auto. unfold starts. simpl. lia.
  - pose proof (fresh_next _ _ _ _ N K) as F. destruct (step_total f o I F) as (f1&d1&S&I1).
    pose proof (step_known _ _ _ _ _ I F K S) as K1. rewrite started_cons, app_assoc in N.
    destruct (IH _ _ I1 K1 N) as (f2&d2&R&I2&K2&X). exists f2, (d1 ++ d2). cbn [fan_run]. rewrite S, R. split; auto. split; auto.
    rewrite started_cons, app_assoc. split; auto. apply step_next in S. rewrite X, S. unfold starts. cbn [filter].
    destruct o; cbn [length]; lia.
Qed.

Lemma run_gone k os : forall cs f f' d, Finv f -> known_corrs cs f -> NoDup (cs ++ started os) -> gone k f ->
  fan_run f os = Some (f', d) -> of_key k d = [].
Proof.
  induction os as [|o os IH]; intros cs f f' d I K N G R; cbn [fan_run] in R.
  - injection R as <- <-. auto.
  - pose proof (fresh_next _ _ _ _ N K) as F. destruct (fan_step f o) as [[f1 d1]|] eqn:S; [|discriminate].
    destruct (fan_run f1 os) as [[f2 d2]|] eqn:R2; [|discriminate]. injection R as <- <-.
    destruct (gone_step _ _ _ _ _ I F G S) as [G1 E1]. pose proof (step_known _ _ _ _ _ I F K S) as K1. rewrite started_cons, app_assoc in N.
    destruct (step_total f o I F) as (f3&d3&S3&I3). rewrite S in S3. injection S3 as <- <-.
    unfold of_key in *. rewrite filter_app, E1. simpl. eapply IH; eauto.
Qed.

Lemma run_live k cb os : forall cs st f f' d, Finv f -> known_corrs cs f -> NoDup (cs ++ started os) -> live k st cb f ->
  fan_run f os = Some (f', d) ->
  (exists r, completes st os r /\ of_key k d = [mk_fired k cb (snd r) (fst r)]) \/
  ((forall r, ~ completes st os r) /\ of_key k d = []).
Proof.
  induction os as [|o os IH]; intros cs st f f' d I K N L R; cbn [fan_run] in R.
  - injection R as <- <-. right. split; auto. intros r X. inversion X; subst. apply complete_done in H. pose proof (fi_open _ I _ L) as O. simpl in O. congruence.
  - pose proof (fresh_next _ _ _ _ N K) as F. destruct (fan_step f o) as [[f1 d1]|] eqn:S; [|discriminate].
    destruct (fan_run f1 os) as [[f2 d2]|] eqn:R2; [|discriminate]. injection R as <- <-.
    pose proof (live_step _ _ _ _ _ _ _ I F L S) as LS. pose proof (step_known _ _ _ _ _ I F K S) as K1. rewrite started_cons, app_assoc in N.
    destruct (step_total f o I F) as (f3&d3&S3&I3). rewrite S in S3. injection S3 as <- <-.
    assert (NC : ~ complete st) by (rewrite complete_done; pose proof (fi_open _ I _ L) as O; simpl in O; rewrite O; discriminate).
    destruct (done (fst (track st o))) eqn:D; destruct LS as [L1 E1].
    + left. exists (track st o). split; [apply c_later; auto; constructor; apply complete_done; auto|].
      pose proof (run_gone k os _ _ _ _ I3 K1 N L1 R2) as G. unfold of_key in *. rewrite filter_app, E1, G. auto.
    + destruct (IH _ _ _ _ _ I3 K1 N L1 R2) as [(r&A&B)|[A B]].
      * left. exists r. split; [apply c_later; auto|]. unfold of_key in *. rewrite filter_app, E1, B. auto.
      * right. split; [|unfold of_key in *; rewrite filter_app, E1, B; auto].
        intros r X. inversion X; subst; [auto|]. eapply A; eauto.
Qed.

Lemma run_app os1 : forall f os2 f' d, fan_run f (os1 ++ os2) = Some (f', d) ->
  exists f1 d1 d2, fan_run f os1 = Some (f1, d1) /\ fan_run f1 os2 = Some (f', d2) /\ d = d1 ++ d2.
Proof.
  induction os1 as [|o os1 IH]; intros f os2 f' d R; cbn [app fan_run] in *.
  - exists f, [], d. auto.
  - destruct (fan_step f o) as [[f1 d1]|]; [|discriminate]. destruct (fan_run f1 (os1 ++ os2)) as [[f2 d2]|] eqn:E; [|discriminate].
    injection R as <- <-. apply IH in E as (g&x&y&A&B&->). rewrite A. exists g, (d1 ++ x), y. rewrite app_assoc. auto.
Qed.

Lemma keys_below os : forall cs f f' d, Finv f -> known_corrs cs f -> NoDup (cs ++ started os) -> fan_run f os = Some (f', d) ->
  forall x, In x d -> d_key x < f_next f'.
Proof.
  induction os as [|o os IH]; intros cs f f' d I K N R x X; cbn [fan_run] in R.
  - injection R as <- <-. destruct X.
  - pose proof (fresh_next _ _ _ _ N K) as F. destruct (fan_step f o) as [[f1 d1]|] eqn:S; [|discriminate].
    destruct (fan_run f1 os) as [[f2 d2]|] eqn:R2; [|discriminate]. injection R as <- <-.
    pose proof (step_known _ _ _ _ _ I F K S) as K1. rewrite started_cons, app_assoc in N.
    destruct (step_total f o I F) as (f3&d3&S3&I3). rewrite S in S3. injection S3 as <- <-.
    apply in_app_iff in X as [X|X]; [|eapply IH; eauto].
    assert (B : d_key x < f_next f1).
    { pose proof (step_next _ _ _ _ S) as NX. destruct o as [ps cb|c m|id]; simpl in S.
      - destruct (fan_start ps cb f) as [g e] eqn:E. injection S as -> ->. destruct F as [F1 F2]. apply start_spec in E as (E1&E2&E3); auto.
        destruct (done _); destruct E3 as [_ ->]; [destruct X as [<-|[]]; simpl; lia|destruct X].
      - unfold fan_reply in S. destruct (find _ (f_lookup f)) as [[c' k']|]; [|injection S as <- <-; destruct X].
        destruct (find _ (f_entries f)) as [e1|] eqn:FE; [|discriminate]. apply find_some in FE as [FE1 FE2]. apply Z.eqb_eq in FE2. subst k'.
        destruct (mark_received _ _); [|discriminate]. apply (fi_lt _ I) in FE1. destruct (done _); injection S as <- <-; [destruct X as [<-|[]]; simpl in *; lia|destruct X].
      - destruct (fan_failed id f) as [g e] eqn:E. injection S as -> ->. apply failed_spec in E as (E1&E2&E3&E4); auto.
        rewrite E4 in X. apply in_map_iff in X as (y&<-&Y). apply filter_In in Y as [Y _]. apply in_map_iff in Y as (z&<-&W).
        apply (fi_lt _ I) in W. simpl in *. lia. }
    destruct (run_total os _ _ I3 K1 N) as (g&e&R3&_&_&Y). rewrite R2 in R3. injection R3 as <- <-. unfold starts in Y. lia.
Qed.

Theorem fan_exactly_once (os1 os2 : list (fop M C)) ps cb :
  NoDup (started (os1 ++ Start ps cb :: os2)) ->
  exists f d, fan_run fan_empty (os1 ++ Start ps cb :: os2) = Some (f, d) /\
  let k := starts os1 in
  ((exists r, completes (begin ps) os2 r /\ of_key k d = [mk_fired k cb (snd r) (fst r)]) \/
   ((forall r : progress M, ~ completes (begin ps) os2 r) /\ of_key k d = [])).
Proof.
  intros N. assert (KE : known_corrs [] fan_empty) by (intros c X; destruct X).
  destruct (run_total _ [] fan_empty Finv_empty KE N) as (f&d&R&_&_&_). exists f, d. split; auto.
  pose proof R as R0. apply run_app in R0 as (f1&d1&d2&R1&R2&->).
  assert (N1 : NoDup ([] ++ started os1)).
  { unfold started in N. rewrite flat_map_app in N. apply nodup_app in N. tauto. }
  destruct (run_total os1 [] fan_empty Finv_empty KE N1) as (g&e&R1'&I1&K1&NX). rewrite R1 in R1'. injection R1' as <- <-.
  simpl in NX. simpl app in K1. cbn [f_next fan_empty] in NX.
  assert (N2 : NoDup (started os1 ++ started (Start ps cb :: os2))) by (unfold started in *; rewrite flat_map_app in N; auto).
  pose proof (fresh_next _ _ _ _ N2 K1) as F. cbn [fan_run] in R2.
  destruct (fan_step f1 (Start ps cb)) as [[f2 e1]|] eqn:S; [|discriminate].
  destruct (fan_run f2 os2) as [[f3 e2]|] eqn:R3; [|discriminate]. injection R2 as <- <-.
  pose proof (step_known _ _ _ _ _ I1 F K1 S) as K2. rewrite started_cons, app_assoc in N2.
  destruct (step_total f1 _ I1 F) as (f4&d4&S4&I4). rewrite S in S4. injection S4 as <- <-.
  assert (D1 : of_key (starts os1) d1 = []).
  { apply of_key_other. intros x X. pose proof (keys_below os1 [] _ _ _ Finv_empty KE N1 R1 x X) as B.
    rewrite NX in B. unfold starts in *. lia. }
  cbv zeta. unfold of_key in *. rewrite !filter_app, D1. simpl app. simpl in S.
  destruct (fan_start ps cb f1) as [f5 e5] eqn:E. injection S as -> ->. destruct F as [F1 F2].
  apply start_spec in E as (E1&E2&E3); auto. change (map (fun x : Z * Z => mk_p (fst x) (snd x) Waiting) ps) with (fst (begin (M:=M) ps)) in E3.
  assert (NK : f_next f1 = starts os1) by (rewrite NX; unfold starts; lia).
  destruct (done (fst (begin (M:=M) ps))) eqn:DN; destruct E3 as [E3 ->].
  - left. exists (begin ps). split; [constructor; apply complete_done; auto|].
    assert (G : gone (starts os1) f2).
    { split; [lia|]. rewrite E3. intros x X. apply (fi_lt _ I1) in X. lia. }
    pose proof (run_gone _ os2 _ _ _ _ I4 K2 N2 G R3) as GE. unfold of_key in GE. rewrite GE. simpl. rewrite NK, Z.eqb_refl. auto.
  - assert (L : live (starts os1) (begin ps) cb f2).
    { unfold live. rewrite E3, in_app_iff, NK. right. left. auto. }
    pose proof (run_live _ cb os2 _ _ _ _ _ I4 K2 N2 L R3) as RL. unfold of_key in RL. simpl app. exact RL.
Qed.


Lemma track_ids st (o : fop M C) : map (fun p => (p_corr p, p_id p)) (fst (track st o)) = map (fun p => (p_corr p, p_id p)) (fst st).
Proof.
  destruct o; auto; cbn [track].
  - destruct (existsb _ _); auto. cbn [fst]. rewrite map_map. apply map_ext. intros p. destruct (_ =? _); auto.
  - cbn [fst]. rewrite map_map. apply map_ext. intros p. destruct (_ =? _); auto.
Qed.

Lemma completes_ids st (os : list (fop M C)) r : completes st os r ->
  map (fun p => (p_corr p, p_id p)) (fst r) = map (fun p => (p_corr p, p_id p)) (fst st) /\ complete r.
Proof. induction 1; [auto|]. rewrite track_ids in IHcompletes. auto. Qed.

Lemma begin_ids ps : map (fun p => (p_corr p, p_id p)) (fst (begin (M:=M) ps)) = ps.
Proof. simpl. rewrite map_map. simpl. induction ps as [|[a b] l IH]; simpl; auto. f_equal. auto. Qed.

Lemma completes_outcome (os : list (fop M C)) ps (r : progress M) : completes (begin ps) os r ->
  map (fun p => (p_corr p, p_id p)) (fst r) = ps /\ (forall p, In p (fst r) -> p_state p = Received \/ p_state p = Failed).
Proof.
  intros H. apply completes_ids in H as [A B]. rewrite begin_ids in A. split; auto.
  intros p P. specialize (B p P). destruct (p_state p); auto. congruence.
Qed.

(* what is known about the replies collected so far *)
Definition Pinv (os : list (fop M C)) (st : progress M) : Prop :=
  NoDup (map p_corr (fst st)) /\
  NoDup (map fst (snd st)) /\
  (forall c m, In (c, m) (snd st) -> In c (map p_corr (fst st)) /\ In (Reply c m) os) /\
  (forall p, In p (fst st) -> p_state p = Waiting -> ~ In (p_corr p) (map fst (snd st))) /\
  (forall p, In p (fst st) -> p_state p = Received -> exists m, In (p_corr p, m) (snd st)).

Lemma Pinv_track os st (o : fop M C) : Pinv os st -> Pinv (os ++ [o]) (track st o).
Proof.
  intros (P0&P1&P2&P3&P4). unfold Pinv. rewrite track_corrs.
  destruct o as [ps cb|c m|id]; cbn [track].
  - repeat split; auto; try (apply P2 in H; tauto). apply in_app_iff. left. apply P2 in H. tauto.
  - destruct (existsb _ _) eqn:X; cbn [fst snd].
    + apply existsb_exists in X as (p&P&X). apply andb_true_iff in X as [X1 X2]. apply Z.eqb_eq in X1. unfold waiting in X2.
      assert (W : p_state p = Waiting) by (destruct (p_state p); try discriminate; auto).
      split; auto. rewrite map_app. cbn [map fst]. split.
      * apply nodup_app. split; auto. split; [constructor; [simpl; tauto|constructor]|]. intros x A [<-|[]]. rewrite <- X1 in A. eapply P3; eauto.
      * split; [|split].
        -- intros c0 m0. rewrite !in_app_iff. intros [A|[A|[]]].
           ++ apply P2 in A. tauto.
           ++ injection A as <- <-. split; [|simpl; auto]. rewrite <- X1. apply in_map; auto.
        -- intros q Q QW. apply in_map_iff in Q as (y&EY&Y). destruct (Z.eqb_spec (p_corr y) c); [subst q; discriminate|]. subst y.
           rewrite in_app_iff. intros [A|[A|[]]]; [eapply P3; eauto|congruence].
        -- intros q Q QR. apply in_map_iff in Q as (y&EY&Y). destruct (Z.eqb_spec (p_corr y) c).
           ++ subst q. simpl. exists m. rewrite in_app_iff, e. simpl. auto.
           ++ subst y. destruct (P4 q Y QR) as (m'&A). exists m'. rewrite in_app_iff. auto.
    + repeat split; auto; try (apply P2 in H; tauto). apply in_app_iff. left. apply P2 in H. tauto.
  - cbn [fst snd]. split; auto. split; auto. split; [|split].
    + intros c0 m0 A. apply P2 in A. rewrite in_app_iff. tauto.
    + intros q Q QW. apply in_map_iff in Q as (y&EY&Y). destruct (_ =? _); [subst q; discriminate|]. subst y. auto.
    + intros q Q QW. apply in_map_iff in Q as (y&EY&Y). destruct (_ =? _); [subst q; discriminate|]. subst y. auto.
Qed.

Lemma completes_pinv st (os : list (fop M C)) r : completes st os r -> forall os0, Pinv os0 st -> Pinv (os0 ++ os) r.
Proof.
  induction 1; intros os0 P.
  - destruct P as (P0&P1&P2&P3&P4). split; auto. split; auto. split; [|split; auto].
    intros c m A. apply P2 in A. rewrite in_app_iff. tauto.
  - replace (os0 ++ o :: os) with ((os0 ++ [o]) ++ os) by (rewrite <- app_assoc; auto). apply IHcompletes. apply Pinv_track; auto.
Qed.

Lemma Pinv_begin ps : NoDup (map fst ps) -> Pinv [] (begin ps).
Proof.
  intros N. unfold Pinv. simpl. rewrite begin_corrs. split; auto. split; [constructor|]. split; [tauto|]. split; [tauto|].
  intros q P E. apply in_map_iff in P as (x&<-&X). discriminate.
Qed.

Lemma completes_replies (os : list (fop M C)) ps (r : progress M) : NoDup (map fst ps) -> completes (begin ps) os r ->
  NoDup (map fst (snd r)) /\
  (forall c m, In (c, m) (snd r) -> In c (map fst ps) /\ In (Reply c m) os) /\
  (forall p, In p (fst r) -> p_state p = Received -> exists m, In (p_corr p, m) (snd r)).
Proof.
  intros N H. pose proof (completes_pinv _ _ _ H [] (Pinv_begin ps N)) as (P0&P1&P2&P3&P4). simpl in P2.
  apply completes_ids in H as [A _]. rewrite begin_ids in A. split; auto. split; auto.
  intros c m X. apply P2 in X as [X Y]. split; auto. rewrite <- A, map_map. simpl. auto.
Qed.


(* ------------------------------------------------------------ replies nobody waits for *)
Definition open_request (os : list (fop M C)) (c id : Z) : Prop :=
  exists os1 ps cb os2, os = os1 ++ Start ps cb :: os2 /\ In (c, id) ps /\ (forall m, ~ In (Reply c m) os2) /\ ~ In (Fail id) os2.

Definition waits_open (os : list (fop M C)) f : Prop :=
  forall e p, In e (f_entries f) -> In p (e_pend e) -> p_state p = Waiting -> open_request os (p_corr p) (p_id p).

Lemma open_snoc os o c id : open_request os c id -> (forall m, o <> Reply c m) -> o <> Fail id -> open_request (os ++ [o]) c id.
Proof.
  intros (os1&ps&cb&os2&->&A&B&D) N1 N2. exists os1, ps, cb, (os2 ++ [o]). rewrite <- app_assoc. split; auto. split; auto.
  split; [intros m X|intros X]; apply in_app_iff in X as [X|[X|[]]]; auto; [eapply B; eauto|eapply N1; eauto].
Qed.

Lemma waits_open_step os f o f' d : Finv f -> fresh o f -> waits_open os f -> fan_step f o = Some (f', d) -> waits_open (os ++ [o]) f'.
Proof.
  intros I F W H e p E P PW. destruct o as [ps cb|c m|id]; simpl in H.
  - destruct (fan_start ps cb f) as [f1 d1] eqn:S. injection H as -> ->. destruct F as [F1 F2]. apply start_spec in S as (S1&S2&S3); auto.
    destruct (done _); destruct S3 as [S3 _]; rewrite S3 in E.
    + apply open_snoc; eauto; discriminate.
    + apply in_app_iff in E as [E|[<-|[]]]; [apply open_snoc; eauto; discriminate|].
      cbn [e_pend begin fst] in P. apply in_map_iff in P as ([a b]&<-&X). exists os, ps, cb, []. simpl. split; auto.
  - assert (Z0 : In e (f_entries f) -> p_corr p <> c -> open_request (os ++ [Reply c m]) (p_corr p) (p_id p)).
    { intros E0 N. apply open_snoc; [eapply W; eauto| |discriminate]. intros m' X. injection X as X Y. auto. }
    destruct (existsb (fun e => existsb (fun p => (p_corr p =? c) && waiting p) (e_pend e)) (f_entries f)) eqn:Y.
    + apply existsb_exists in Y as (e1&E1&Y). apply existsb_exists in Y as (q&Q&Y). apply andb_true_iff in Y as [Y1 Y2].
      apply Z.eqb_eq in Y1. unfold waiting in Y2. destruct (p_state q) eqn:WQ; try discriminate.
      destruct (reply_counts f c m e1 q I E1 Q Y1 WQ) as (f1&d1&A&B&B2&B3). rewrite A in H. injection H as -> ->.
      assert (OTH : In e (f_entries f) -> e_key e <> e_key e1 -> p_corr p <> c).
      { intros E0 NK EC. rewrite <- Y1 in EC. destruct (corr_unique _ e e1 p q (fi_corrs _ I) E0 E1 P Q EC) as [-> _]. auto. }
      cbv zeta in B3. destruct (done (received_at c (e_pend e1))); destruct B3 as [B3 _]; rewrite B3 in E.
      * apply filter_In in E as [E NE]. apply negb_true_iff, Z.eqb_neq in NE. auto.
      * apply in_map_iff in E as (y&EY&Y'). destruct (Z.eqb_spec (e_key y) (e_key e1)) as [KE|KE].
        -- subst e. simpl in P. unfold received_at in P. apply in_map_iff in P as (z&EZ&Z1).
           destruct (Z.eqb_spec (p_corr z) c); [subst p; discriminate|]. subst z.
           apply open_snoc; [exact (W e1 p E1 Z1 PW)| |discriminate]. intros m' X. injection X as X X'. auto.
        -- subst y. auto.
    + rewrite reply_ignored in H; auto.
      * injection H as <- <-. apply Z0; auto. intros EC.
        assert (X : existsb (fun e => existsb (fun p => (p_corr p =? c) && waiting p) (e_pend e)) (f_entries f) = true); [|congruence].
        apply existsb_exists. exists e. split; auto. apply existsb_exists. exists p. split; auto. unfold waiting. rewrite EC, PW, Z.eqb_refl. auto.
      * intros e2 p2 E2 P2 PC2 PW2.
        assert (X : existsb (fun e => existsb (fun p => (p_corr p =? c) && waiting p) (e_pend e)) (f_entries f) = true); [|congruence].
        apply existsb_exists. exists e2. split; auto. apply existsb_exists. exists p2. split; auto. unfold waiting. rewrite PC2, PW2, Z.eqb_refl. auto.
  - destruct (fan_failed id f) as [f1 d1] eqn:S. injection H as -> ->. apply failed_spec in S as (S1&S2&S3&S4); auto.
    rewrite S3 in E. apply filter_In in E as [E _]. apply in_map_iff in E as (y&<-&Y). simpl in P. unfold mark_failed in P.
    apply in_map_iff in P as (z&EZ&Z1). destruct (Z.eqb_spec (p_id z) id); [subst p; discriminate|]. subst z.
    apply open_snoc; [exact (W y p Y Z1 PW)|discriminate|]. intros X. injection X as X. auto.
Qed.

Lemma waits_open_run os : forall os0 cs f f' d, Finv f -> known_corrs cs f -> NoDup (cs ++ started os) -> waits_open os0 f ->
  fan_run f os = Some (f', d) -> waits_open (os0 ++ os) f'.
Proof.
  induction os as [|o os IH]; intros os0 cs f f' d I K N W R; cbn [fan_run] in R.
  - injection R as <- <-. rewrite app_nil_r. auto.
  - pose proof (fresh_next _ _ _ _ N K) as F. destruct (fan_step f o) as [[f1 d1]|] eqn:S; [|discriminate].
    destruct (fan_run f1 os) as [[f2 d2]|] eqn:R2; [|discriminate]. injection R as <- <-.
    pose proof (step_known _ _ _ _ _ I F K S) as K1. rewrite started_cons, app_assoc in N.
    destruct (step_total f o I F) as (f3&d3&S3&I3). rewrite S in S3. injection S3 as <- <-.
    replace (os0 ++ o :: os) with ((os0 ++ [o]) ++ os) by (rewrite <- app_assoc; auto).
    apply (IH (os0 ++ [o]) _ _ _ _ I3 K1 N (waits_open_step os0 f o f1 d1 I F W S) R2).
Qed.

Lemma nodup_fst_fun (ps : list (Z * Z)) c i j : NoDup (map fst ps) -> In (c, i) ps -> In (c, j) ps -> i = j.
Proof.
  induction ps as [|[a b] l IH]; intros N A B; [destruct A|]. simpl in N. inversion N; subst.
  destruct A as [A|A], B as [B|B].
  - congruence.
  - exfalso. injection A as -> ->. apply H1. apply in_map_iff. exists (c, j). auto.
  - exfalso. injection B as -> ->. apply H1. apply in_map_iff. exists (c, i). auto.
  - auto.
Qed.

Lemma unknown_ignored (os : list (fop M C)) f d c m :
  NoDup (started os) -> fan_run fan_empty os = Some (f, d) ->
  (forall os1 ps cb os2, os = os1 ++ Start ps cb :: os2 -> In c (map fst ps) ->
      (exists m', In (Reply c m') os2) \/ (exists id, In (c, id) ps /\ In (Fail id) os2)) ->
  fan_reply c m f = Some (f, []).
Proof.
  intros N R H. assert (KE : known_corrs [] fan_empty) by (intros x X; destruct X).
  assert (W0 : waits_open [] fan_empty) by (intros e p E; destruct E).
  pose proof (waits_open_run os [] [] _ _ _ Finv_empty KE N W0 R) as W. simpl in W.
  destruct (run_total os [] _ Finv_empty KE N) as (f'&d'&R'&I&_&_). rewrite R in R'. injection R' as <- <-.
  apply reply_ignored; auto. intros e p E P PC PW. destruct (W e p E P PW) as (os1&ps&cb&os2&EQ&A&B&D). rewrite PC in *.
  destruct (H os1 ps cb os2 EQ) as [(m'&X)|(id&X&Y)].
  - apply in_map_iff. exists (c, p_id p). auto.
  - eapply B; eauto.
  - apply D. assert (NP : NoDup (map fst ps)).
    { rewrite EQ in N. unfold started in N. rewrite flat_map_app in N. apply nodup_app in N as (_&N&_). simpl in N. apply nodup_app in N as (N&_&_). auto. }
    rewrite (nodup_fst_fun ps c (p_id p) id NP A X). auto.
Qed.

End Fan.

(* A connection that is asked to leave is closed when nothing is in flight. *)
From Coq Require Import ZArith List Bool Lia.
From Verif Require Import GwoModel GwoSpec GwoProofs GwoInv GwoKeep GwoTight GwoReply GwoWire GwoTold GwoLost GwoClose GwoConsult.
Import ListNotations.
Local Open Scope Z_scope.

Definition kl (s s' : state) : Prop := sub s s' /\ forall l, In l (s_leaving s) -> live (fst l) s' -> In l (s_leaving s').
Lemma kl_trans s s1 s2 : kl s s1 -> kl s1 s2 -> kl s s2.
Proof. intros [A1 B1] [A2 B2]. split; [intros n I; auto|]. intros d I L. apply B2; auto. apply B1; auto. destruct L as [n [L1 L2]]. exists n. split; auto. Qed.
Lemma kl_same s s' : s_conns s' = s_conns s -> s_leaving s' = s_leaving s -> kl s s'.
Proof. intros A B. split; [intros n; now rewrite A|]. intros d. now rewrite B. Qed.
Lemma kl_bind s r f : sat r (fun s' _ => kl s s') -> (forall s1, sat (f s1) (fun s' _ => kl s1 s')) -> sat (bind r f) (fun s' _ => kl s s').
Proof. intros A B. apply (sat_bind _ _ _ _ A). intros s1 e1 H. apply (sat_weaken _ _ _ (B s1)). intros s2 e2 H2. eapply kl_trans; eauto. Qed.
Lemma lost_kl f s : sat (lost f s) (fun s' _ => kl s s').
Proof.
  unfold lost. destruct (by_sock f s); [|exact I]. split; cbn.
  - intros n J. now apply filter_In in J as [J _].
  - intros d J [n [L1 L2]]. apply filter_In in L1 as [_ L1]. apply filter_In. split; auto. destruct d as [x b]. cbn in *. now rewrite <- L2.
Qed.
Lemma send_kl ok f m s : sat (send ok f m s) (fun s' _ => kl s s').
Proof. unfold send. destruct (by_sock f s); [|now apply kl_same]. destruct ok; [now apply kl_same|]. apply kl_bind; [apply lost_kl|]. intro; now apply kl_same. Qed.
Lemma involve_kl t f s : sat (involve t f s) (fun s' _ => kl s s').
Proof. unfold involve. destruct t as [[g b]|]; [|now apply kl_same]. destruct (associate _ _ _) as [first l]. destruct first; [destruct (by_sock f s)|]; now apply kl_same. Qed.
Lemma add_dest_kl k p f s : kl s (add_dest k p f s).
Proof. unfold add_dest. destruct (existsb _ _); now apply kl_same. Qed.
Lemma leave_kl b f s : kl s (State (s_conns s) (s_tasks s) (s_dests s) (s_assoc s) (s_leaving s ++ [(f, b)]) (s_down s)).
Proof. split; [intros n; auto|]. cbn. intros l I _. apply in_or_app; auto. Qed.
Lemma inward_kl ok n m s : sat (inward_step ok n m s) (fun s' _ => kl s s').
Proof.
  assert (AT : forall q s1, sat (involve (q_trid q) (c_sock n) (add_task (c_sock n) q s1)) (fun s' _ => kl s1 s')).
  { intros q s1. apply (sat_weaken _ _ _ (involve_kl _ _ _)). intros s2 e. apply (kl_trans s1). now apply kl_same. }
  assert (AD : forall k p w, sat (send ok (c_sock n) w (add_dest k p (c_sock n) s)) (fun s' _ => kl s s')).
  { intros k p w. apply (sat_weaken _ _ _ (send_kl ok _ _ _)). intros s2 e. apply kl_trans. apply add_dest_kl. }
  destruct m as [q|k data|k|r k p t data|k p data|data]; cbn -[sat].
  - destruct (q_kind q).
    + unfold call_request. destruct (has_corr _ _); [now apply kl_same|]. destruct (c_old n).
      * apply kl_bind; [apply AT|]. intro; apply send_kl.
      * pose proof (send_kl ok (c_sock n) (WRequest false q) s) as H. destruct (send ok (c_sock n) (WRequest false q) s); auto. destruct ok; [|exact I]. apply kl_bind; auto.
    + unfold queue_request. apply kl_bind; [apply send_kl|]. intro; apply AT.
    + unfold queue_request. apply kl_bind; [apply send_kl|]. intro; apply AT.
    + unfold connect_request. apply kl_bind; [apply AT|]. intro; apply send_kl.
  - apply send_kl.
  - unfold disconnect_conversation. destruct (first_task k s) as [t|]; [|now apply kl_same]. destruct (q_kind (k_request t)); try now apply kl_same.
    destruct (by_sock (k_sock t) s) eqn:B; [|now apply kl_same]. unfold send. rewrite B. destruct ok; [|destruct (bind _ _); exact I]. now apply kl_same.
  - apply AD.
  - destruct (s_down s); [now apply kl_same|]. destruct (is_leaving _ _); [now apply kl_same|]. apply AD.
  - destruct (s_down s); [now apply kl_same|]. destruct (is_leaving _ _); [now apply kl_same|]. apply send_kl.
Qed.
Lemma outward_kl ok n m s : sat (outward_step ok n m s) (fun s' _ => kl s s').
Proof.
  destruct m as [nk k code data|k x data|r k data|k ss qs data|k]; cbn -[sat leave take_dest].
  - unfold task_reply. destruct (first_task k s) as [t|]; [|now apply kl_same]. destruct (kind_eqb _ nk); [|now apply kl_same]. destruct nk; now apply kl_same.
  - unfold task_send. destruct (first_task k s) as [t|]; [|now apply kl_same]. destruct (q_kind _); try now apply kl_same. destruct x; now apply kl_same.
  - now apply kl_same.
  - now apply kl_same.
  - apply kl_bind; [apply leave_kl|intro; apply send_kl].
Qed.
Lemma close_all_kl l s : sat (close_all l s) (fun s' _ => kl s s').
Proof. revert s. induction l as [|[f b] l IH]; intro s; cbn -[sat]; [now apply kl_same|]. apply kl_bind; [|exact IH]. apply kl_bind; [apply lost_kl|]. intro; now apply kl_same. Qed.
Lemma leave_all_kl l s : sat (leave_all l s) (fun s' _ => kl s s').
Proof. revert s. induction l as [|n l IH]; intro s; cbn -[sat leave]; [now apply kl_same|]. apply kl_bind; [apply leave_kl|exact IH]. Qed.
Lemma step_kl i s : sat (step i s) (fun s' _ => forall l, In l (s_leaving s) -> live (fst l) s' -> In l (s_leaving s')).
Proof.
  assert (K : forall r, sat r (fun s' _ => kl s s') -> sat r (fun s' _ => forall l, In l (s_leaving s) -> live (fst l) s' -> In l (s_leaving s'))).
  { intros r H. apply (sat_weaken _ _ _ H). intros s' _ [A B]. auto. }
  destruct i as [f c old|c ok m|c ok m|c|g|c| |]; cbn -[sat leave shutdown idle inward_step outward_step].
  - cbn. auto.
  - apply K. destruct (by_ipc c s) as [n|]; [apply inward_kl|now apply kl_same].
  - apply K. destruct (by_ipc c s) as [n|]; [apply outward_kl|now apply kl_same].
  - apply K. destruct (by_ipc c s) as [n|]; [|now apply kl_same]. apply kl_bind; [apply lost_kl|]. intro; now apply kl_same.
  - cbn; auto.
  - apply K. destruct (by_ipc c s) as [n|]; [apply leave_kl|now apply kl_same].
  - unfold shutdown. apply (sat_weaken _ _ _ (leave_all_kl (s_conns s) (State (s_conns s) (s_tasks s) (s_dests s) (s_assoc s) (s_leaving s) true))). intros s1 _ [_ B]. auto.
  - apply K. apply close_all_kl.
Qed.
(* the new ones *)
Lemma step_leaves i s n : wf s -> In n (s_conns s) -> asked_to_leave (c_ipc n) i -> sat (step i s) (fun s' _ => In n (s_conns s') -> exists b, In (c_sock n, b) (s_leaving s')).
Proof.
  intros W I A. assert (ONE : forall m, In m (s_conns s) -> c_ipc m = c_ipc n -> m = n) by (intros; apply (same_ipc s); auto; apply W).
  destruct i as [f c old|c ok m|c ok m|c|g|c| |]; cbn in A; try contradiction.
  - destruct m as [| | | |k]; try contradiction. subst c. cbn -[sat outward_step]. destruct (by_ipc (c_ipc n) s) as [m|] eqn:B; [|exfalso; unfold by_ipc in B; pose proof (find_none _ _ B n I) as Q; cbn in Q; now rewrite Z.eqb_refl in Q].
    apply by_ipc_some in B as [B1 B2]. rewrite (ONE m B1 B2). cbn -[sat leave].
    apply (sat_bind _ _ _ (fun s' _ => In (c_sock n, true) (s_leaving s'))); [cbn; apply in_or_app; cbn; auto|]. intros s1 _ J.
    apply (sat_weaken _ _ _ (send_kl ok (c_sock n) (WDisconnected k) s1)). intros s2 _ [_ K] J2. exists true. apply K; auto. exists n. auto.
  - subst c. cbn -[sat leave]. destruct (by_ipc (c_ipc n) s) as [m|] eqn:B; [|exfalso; unfold by_ipc in B; pose proof (find_none _ _ B n I) as Q; cbn in Q; now rewrite Z.eqb_refl in Q].
    apply by_ipc_some in B as [B1 B2]. rewrite (ONE m B1 B2). cbn. intros _. exists false. apply in_or_app; cbn; auto.
  - cbn -[sat shutdown]. unfold shutdown. apply (sat_weaken _ _ _ (leave_all_lv _ _)). cbn. intros s1 _ H _. exists true. rewrite H. apply in_or_app. right. apply in_map_iff. exists n. auto.
Qed.
Lemma left_leaving s h : reach s h -> forall n, In n (s_conns s) -> left (c_ipc n) h -> exists b, In (c_sock n, b) (s_leaving s).
Proof.
  induction 1 as [|s h i s' ev R IH P E]; [cbn; tauto|]. intros n I [h1 [j [e [h2 [EQ [A O]]]]]]. pose proof (reach_inv s h R) as [W _ OP _].
  assert (SUB : open (c_ipc n) h -> In n (s_conns s)).
  { intro Q. apply OP in Q. unfold ipcs in Q. apply in_map_iff in Q as [m [M1 M2]]. destruct (match i with Connected _ _ _ => true | _ => false end) eqn:NC.
    - destruct i as [f c old| | | | | | |]; try discriminate NC. cbn in E. injection E as <- <-. cbn in I. apply in_app_or in I as [I|[I|[]]]; auto. subst n. cbn in *. exfalso. subst c.
      destruct P as [_ P]. assert (Q : In (c_ipc m) (ipcs s)) by now apply in_map. apply OP in Q as [[f' [o' Q]] _]. apply inputs_in in Q as [e' Q]. apply (P _ _ _ Q).
    - assert (N : forall f c old, i <> Connected f c old) by (intros; intros ->; discriminate). pose proof (sat_done _ _ _ _ E (step_good i s W N)) as [_ [[ff G] _]]. rewrite G in I. now apply filter_In in I as [I _]. }
  destruct h2 as [|x h2 _] using rev_ind.
  - apply app_inj_tail in EQ as [<- EQ]. injection EQ as <- <-. apply (sat_done _ _ _ _ E (step_leaves i s n W (SUB O) A) I).
  - assert (EQ2 : h1 ++ (j, e) :: h2 ++ [x] = (h1 ++ (j, e) :: h2) ++ [x]) by (rewrite <- app_assoc; reflexivity). rewrite EQ2 in EQ. apply app_inj_tail in EQ as [EQ _].
    assert (OH : open (c_ipc n) h).
    { destruct O as [[f [o O1]] O2]. split; [exists f, o; rewrite EQ, inputs_app; apply in_or_app; auto|]. intro G.
      pose proof (reach_inv _ _ (reach_step _ _ _ _ _ R P E)) as [_ _ OP' _]. assert (Q : In (c_ipc n) (ipcs s')) by now apply in_map. apply OP' in Q as [_ Q]. apply Q. unfold gone in *. rewrite effects_snoc. apply in_or_app; auto. }
    destruct (IH n (SUB OH)) as [b B]; [exists h1, j, e, h2; auto|]. exists b. apply (sat_done _ _ _ _ E (step_kl i s) (c_sock n, b) B). exists n. auto.
Qed.
Lemma close_all_closes l s f b n : wf s -> In (f, b) l -> In n (s_conns s) -> c_sock n = f -> sat (close_all l s) (fun _ ev => In (Destroyed (c_ipc n)) ev).
Proof.
  revert s. induction l as [|[g x] l IH]; intros s W J I E; [destruct J|]. cbn -[sat lost].
  pose proof (lost_good g s W) as G. destruct (lost g s) as [s1 e1| |] eqn:L; try exact Logic.I. cbn in G. destruct G as [W1 [_ C]].
  cbn -[sat]. destruct (in_dec Z.eq_dec (c_ipc n) (ipcs s1)) as [K|K].
  - destruct J as [J|J].
    + exfalso. injection J as <- <-. subst g. unfold lost in L. rewrite (by_sock_in s n (wf_sock _ W) I) in L. injection L as <- _. unfold ipcs in K. cbn in K.
      apply in_map_iff in K as [m [M1 M2]]. apply filter_In in M2 as [M2 M3]. rewrite (same_ipc s m n (wf_ipc _ W) M2 I M1), Z.eqb_refl in M3. discriminate.
    + assert (I1 : In n (s_conns s1)).
      { unfold ipcs in K. apply in_map_iff in K as [m [M1 M2]]. assert (m = n); [|now subst]. pose proof (lost_good g s W) as G2. rewrite L in G2. cbn in G2. destruct G2 as [_ [[ff F] _]].
        apply (same_ipc s); auto; [apply W|]. rewrite F in M2. now apply filter_In in M2 as [M2 _]. }
      specialize (IH s1 W1 J I1 E). destruct (close_all l s1); auto. cbn in *. apply in_or_app; auto.
  - assert (D : In (Destroyed (c_ipc n)) e1) by (apply C; split; auto; now apply in_map). destruct (close_all l s1); cbn; auto. apply in_or_app; left. apply in_or_app; auto.
Qed.
Lemma idle_must_close h ev c : happens (h ++ [(Idle, ev)]) -> orderly h -> left c h -> open c h ->
  (forall g, told g c h = false) ->
  (forall p n k, asked_at c p n k h -> n <> Connect /\ answered p n k h = asked p n k h) ->
  (forall p k, consulted_at c p k h -> consulted_count p k h = consults_count p k h) ->
  In (Destroyed c) ev.
Proof.
  intros H O L OC T A C. destruct (happens_snoc _ _ _ H) as [s [s' [R [P [E R']]]]]. pose proof (reach_inv s h R) as [W _ OP _].
  apply OP in OC. unfold ipcs in OC. apply in_map_iff in OC as [n [<- I]]. destruct (left_leaving s h R n I L) as [b B].
  assert (ID : idle_sock s (c_sock n) = true).
  { unfold idle_sock. destruct (has_assoc (c_sock n) (s_assoc s)) eqn:E1.
    - exfalso. unfold has_assoc in E1. apply existsb_exists in E1 as [[g fs] [X1 X2]]. apply existsb_eqb in X2. assert (Q : assoc g (c_sock n) (s_assoc s)) by (exists fs; auto).
      apply (kn_told _ _ (reach_known s h R O) n g I) in Q. rewrite T in Q. discriminate.
    - destruct (existsb (fun d => d_sock d =? c_sock n) (s_dests s)) eqn:E2.
      + exfalso. apply existsb_exists in E2 as [d [X1 X2]]. apply Z.eqb_eq in X2. destruct (dest_from s h R d X1) as [m [M1 [M2 M3]]].
        assert (m = n) by (apply (same_sock s); auto; [apply W|congruence]). subst m. specialize (C _ _ M3).
        assert (X : forall s h, reach s h -> (consulted_count (d_ipc d) (d_corr d) h + owed (d_ipc d) (d_corr d) s <= consults_count (d_ipc d) (d_corr d) h)%nat).
        { clear. induction 1 as [|s h i s' ev R IH P E]; [cbn; lia|]. pose proof (dstep_owed _ _ _ _ (d_ipc d) (d_corr d) (sat_done _ _ _ _ E (step_ds i s))) as D.
          unfold consulted_count, consults_count in *. rewrite effects_snoc, inputs_snoc, !count_app. cbn. lia. }
        specialize (X s h R). destruct (owed (d_ipc d) (d_corr d) s) eqn:Z0; [|lia]. pose proof (count_zero_inv _ _ _ Z0 X1) as Y. unfold mine in Y. rewrite !Z.eqb_refl in Y. discriminate.
      + destruct (existsb (fun t => k_sock t =? c_sock n) (s_tasks s)) eqn:E3; [|reflexivity]. exfalso. apply existsb_exists in E3 as [t [X1 X2]]. apply Z.eqb_eq in X2.
        destruct (reach_tight s h R O) as [_ G]. destruct (G t X1) as [m [ok [M1 [M2 M3]]]]. assert (m = n) by (apply (same_sock s); auto; [apply W|congruence]). subst m.
        destruct (A (q_from (k_request t)) (q_kind (k_request t)) (q_corr (k_request t))) as [A1 A2]; [exists ok, (k_request t); split; auto; apply is_request_true; auto|].
        rewrite (accounted s h R _ _ _ A1) in A2.
        assert (Wt : waiting (q_from (k_request t)) (q_kind (k_request t)) (q_corr (k_request t)) s = 0%nat) by lia.
        pose proof (count_zero_inv _ _ _ Wt X1) as Y. unfold waits in Y. assert (is_request (q_from (k_request t)) (q_kind (k_request t)) (q_corr (k_request t)) (k_request t) = true) by (apply is_request_true; auto). congruence. }
  cbn -[idle] in E. unfold idle in E.
  assert (J : In (c_sock n, b) (filter (fun l => idle_sock s (fst l)) (s_leaving s))) by (apply filter_In; split; [exact B|exact ID]).
  apply (sat_done _ _ _ _ E (close_all_closes _ s (c_sock n) b n W J I eq_refl)).
Qed.

(* what has been asked at a connection is kept with it *)
Lemma dest_there h1 c p k m ev h2 s3 : reach s3 (h1 ++ (Inward c true m, ev) :: h2) ->
  consults p k (Inward c true m) = true -> ~ In Shutdown (inputs h1) -> ~ left c h1 ->
  (forall i e, In (i, e) h1 -> consult_corr k i = false) -> (forall i e, In (i, e) h2 -> consult_reply k i = false) ->
  open c (h1 ++ (Inward c true m, ev) :: h2) -> exists n, In n (s_conns s3) /\ c_ipc n = c /\ In (Dest k p (c_sock n)) (s_dests s3).
Proof.
  intros R3 A NS NL C1 C2 OPEN.
  assert (HH : h1 ++ (Inward c true m, ev) :: h2 = (h1 ++ [(Inward c true m, ev)]) ++ h2) by (rewrite <- !app_assoc; reflexivity). rewrite HH in R3.
  destruct (happens_snoc h1 (Inward c true m) ev) as [s0 [s1 [R0 [P0 [E0 R1]]]]]; [apply (happens_prefix _ h2); exists s3; auto|].
  pose proof (reach_inv _ _ R0) as [W0 _ OP0 _]. pose proof (reach_inv _ _ R3) as [W3 _ OP3 _]. pose proof (reach_inv _ _ R1) as [W1 _ OP1 _].
  cbn in P0. destruct (by_ipc_in c s0 P0) as [n B]. apply by_ipc_some in B as B'. destruct B' as [B1 B2].
  assert (X : existsb (fun d => d_corr d =? k) (s_dests s0) = false) by (apply (existsb_none k s0 h1 R0); intros i e J; apply (C1 i e); auto).
  assert (ND : s_down s0 = false). { destruct (s_down s0) eqn:D; auto. exfalso. apply NS. now apply (down_iff s0 h1 R0). }
  assert (NLV : is_leaving (c_sock n) s0 = false).
  { destruct (is_leaving (c_sock n) s0) eqn:D; auto. exfalso. apply NL. unfold is_leaving in D. apply existsb_exists in D as [l [D1 D2]]. apply Z.eqb_eq in D2.
    destruct (leaving_left s0 h1 R0 l D1) as [n' [M1 [M2 M3]]]. rewrite <- B2. rewrite (same_sock s0 n n'); auto; [apply W0|rewrite M2; symmetry; exact D2]. }
  assert (AD : forall w, sat (send true (c_sock n) w (add_dest k p (c_sock n) s0)) (fun s' _ => In n (s_conns s') /\ In (Dest k p (c_sock n)) (s_dests s'))).
  { intros w. unfold send. rewrite (by_sock_in _ n); [|rewrite add_dest_conns; apply W0|rewrite add_dest_conns; auto]. cbn. rewrite add_dest_conns. split; auto. unfold add_dest. rewrite X. cbn. apply in_or_app; cbn; auto. }
  assert (Y : In n (s_conns s1) /\ In (Dest k p (c_sock n)) (s_dests s1)).
  { cbn -[inward_step] in E0. rewrite B in E0. destruct m as [q|k' data|k'|r k' p' t data|k' p' data|data]; cbn in A; try discriminate; apply andb_true_iff in A as [A1 A2]; apply Z.eqb_eq in A1; apply Z.eqb_eq in A2; subst k' p'; cbn in E0.
    - apply (sat_done _ _ _ _ E0 (AD _)).
    - rewrite ND, NLV in E0. apply (sat_done _ _ _ _ E0 (AD _)). }
  destruct Y as [Y1 Y2]. exists n.
  destruct (dest_kept s1 _ h2 s3 n k p R1 R3) as [Z1 Z2]; auto. apply OP3. rewrite B2. rewrite <- app_assoc. exact OPEN.
Qed.
Lemma idle_keeps_consulted h1 c p k m ev h2 ev2 : happens (h1 ++ (Inward c true m, ev) :: h2 ++ [(Idle, ev2)]) ->
  consults p k (Inward c true m) = true -> ~ In Shutdown (inputs h1) -> ~ left c h1 ->
  (forall i e, In (i, e) h1 -> consult_corr k i = false) -> (forall i e, In (i, e) h2 -> consult_reply k i = false) ->
  ~ In (Destroyed c) ev2.
Proof.
  intros H A NS NL C1 C2 J.
  assert (HH : h1 ++ (Inward c true m, ev) :: h2 ++ [(Idle, ev2)] = (h1 ++ (Inward c true m, ev) :: h2) ++ [(Idle, ev2)]) by (rewrite <- !app_assoc; reflexivity). rewrite HH in H.
  destruct (happens_snoc _ _ _ H) as [s [s' [R [P [E R']]]]]. pose proof (reach_inv s _ R) as [W _ OP _].
  destruct (sat_done _ _ _ _ E (step_only Idle s W) c J) as [n [K1 [K2 [K3 _]]]]. unfold idle_sock in K3. apply andb_true_iff in K3 as [K3 _]. apply andb_true_iff in K3 as [_ K4]. apply negb_true_iff in K4.
  assert (O : open c (h1 ++ (Inward c true m, ev) :: h2)) by (apply OP; rewrite <- K2; now apply in_map).
  destruct (dest_there h1 c p k m ev h2 s R A NS NL C1 C2 O) as [n' [M1 [M2 M3]]]. assert (n' = n) by (apply (same_ipc s); auto; [apply W|congruence]). subst n'.
  apply not_true_iff_false in K4. apply K4. apply existsb_exists. exists (Dest k p (c_sock n)). split; auto. cbn. apply Z.eqb_refl.
Qed.
Lemma refused h c ok k p d ev : happens (h ++ [(Inward c ok (InDiscover k p d), ev)]) -> In Shutdown (inputs h) \/ left c h -> ev = [ToProcess p (Discovered k None)].
Proof.
  intros H X. destruct (happens_snoc _ _ _ H) as [s [s' [R [P [E R']]]]]. pose proof (reach_inv s _ R) as [W _ OP _]. cbn in P. destruct (by_ipc_in c s P) as [n B]. cbn in E. rewrite B in E. cbn in E.
  apply by_ipc_some in B as [B1 B2]. destruct (s_down s) eqn:D; [now injection E as _ <-|]. destruct X as [X|X]; [apply (down_iff s h R) in X; congruence|].
  rewrite <- B2 in X. destruct (left_leaving s h R n B1 X) as [b L]. assert (Y : is_leaving (c_sock n) s = true) by (unfold is_leaving; apply existsb_exists; exists (c_sock n, b); split; auto; cbn; apply Z.eqb_refl).
  rewrite Y in E. now injection E as _ <-.
Qed.

(* What is sent to the remotes. *)
From Coq Require Import ZArith List Bool Lia.
From Verif Require Import GwoModel GwoSpec GwoProofs GwoInv GwoKeep GwoTight GwoReply.
Import ListNotations.
Local Open Scope Z_scope.

Lemma reach_snoc s' h i ev : reach s' (h ++ [(i, ev)]) -> exists s, reach s h /\ possible i s h /\ step i s = Done s' ev.
Proof.
  intro R. inversion R as [E|s h0 i0 s0 ev0 R0 P0 E0 EQ E1]; [destruct h; discriminate|].
  apply app_inj_tail in E1 as [-> E1]. injection E1 as -> ->. eauto.
Qed.
Lemma happens_snoc h i ev : happens (h ++ [(i, ev)]) -> exists s s', reach s h /\ possible i s h /\ step i s = Done s' ev /\ reach s' (h ++ [(i, ev)]).
Proof. intros [s' R]. destruct (reach_snoc _ _ _ _ R) as [s [A [B C]]]. eauto 8. Qed.

Lemma has_corr_in k l : has_corr k l = true -> exists t, In t l /\ q_corr (k_request t) = k.
Proof. unfold has_corr. rewrite existsb_exists. intros [t [I E]]. apply Z.eqb_eq in E. eauto. Qed.
(* every task comes from a request, also if it isn't orderly *)
Lemma task_asked s h : reach s h -> forall t, In t (s_tasks s) -> exists c ok, In (Inward c ok (InRequest (k_request t))) (inputs h).
Proof.
  induction 1 as [|s h i s' ev R IH P E]; cbn; [tauto|]. intros t I. setoid_rewrite inputs_snoc. setoid_rewrite in_app_iff.
  destruct (sat_done _ _ _ _ E (step_from i s) t I) as [I0|A].
  - destruct (IH t I0) as [c [ok H]]. eauto.
  - destruct i as [|c ok m| | | | | | ]; cbn in A; try contradiction. destruct A as [n [B A]]. destruct m as [q| | | | |]; cbn in A; try contradiction.
    unfold is_task in A. subst t. exists c, ok. cbn. auto.
Qed.

Lemma reply_cause h i ev p n k code data : happens (h ++ [(i, ev)]) -> orderly (h ++ [(i, ev)]) -> In (ToProcess p (Reply n k code data)) ev ->
  (exists c ok, i = Outward c ok (XReply n k code data) /\ exists c', asked_at c' p n k h /\ open c' h) \/
  (n = Call /\ code = TPESYSTEM /\ data = 0 /\ asks p n k i = true /\
     exists c ok q, In (Inward c ok (InRequest q)) (inputs h) /\ q_corr q = k /\ open c h /\ (q_kind q <> Connect -> (answered (q_from q) (q_kind q) k h < asked (q_from q) (q_kind q) k h)%nat)) \/
  (n <> Connect /\ code = lost_code n /\ data = 0 /\ exists c, In (Destroyed c) ev /\ asked_at c p n k (h ++ [(i, ev)])).
Proof.
  intros H O I. destruct (happens_snoc _ _ _ H) as [s [s' [R [P [E R']]]]].
  pose proof (orderly_snoc _ _ _ O) as [O1 O2]. destruct (reach_tight s h R O1) as [T G].
  pose proof (reach_inv s h R) as [W _ OP _].
  destruct (sat_done _ _ _ _ E (step_replies i s) _ _ _ _ _ I) as [[c [ok [E1 [t [I1 E2]]]]]|[L|D]].
  - left. exists c, ok. split; auto. destruct (G t I1) as [m [ok' [J1 [J2 J3]]]]. exists (c_ipc m). split; [exists ok', (k_request t); auto|]. apply OP. now apply in_map.
  - right; left. destruct L as [c [ok [q [E1 [E2 [E3 [E4 [E5 E6]]]]]]]]. split; auto. split; auto. split; auto. split; [subst i; exact E2|].
    destruct (has_corr_in _ _ E6) as [t [I1 C]]. destruct (G t I1) as [m [ok' [J1 [J2 J3]]]]. exists (c_ipc m), ok', (k_request t). split; auto. split; auto. split; [apply OP; now apply in_map|].
    intro N. rewrite (accounted s h R _ _ _ N). assert (X : waits (q_from (k_request t)) (q_kind (k_request t)) k t = true) by (apply is_request_true; auto).
    destruct (waiting (q_from (k_request t)) (q_kind (k_request t)) k s) eqn:Wt; [|lia].
    unfold waiting in Wt. rewrite (count_zero_inv _ _ _ Wt I1) in X. discriminate.
  - right; right. destruct D as [D1 [D2 [D3 [t [m [E1 [E2 [E3 [E4 E5]]]]]]]]]. split; auto. split; auto. split; auto. exists (c_ipc m). split; auto.
    destruct E1 as [I1|A].
    + destruct (G t I1) as [m' [ok' [J1 [J2 J3]]]]. assert (m = m') by (apply (same_sock s); [apply W|auto|auto|congruence]). subst m'.
      exists ok', (k_request t). split; auto. rewrite inputs_snoc. apply in_or_app; auto.
    + destruct i as [|c ok mm| | | | | | ]; cbn in A; try contradiction. destruct A as [cn [B A]]. destruct mm as [q| | | | |]; cbn in A; try contradiction.
      unfold is_task in A. subst t. cbn in *. apply by_ipc_some in B as [B1 B2]. assert (m = cn) by (apply (same_sock s); [apply W|auto|auto|congruence]). subst cn.
      exists ok, q. split; auto. rewrite inputs_snoc. apply in_or_app. right. rewrite B2. cbn; auto.
Qed.

(* ---- to the remote ---- *)
Definition remote_free (ev : list effect) : Prop := forall c m, ~ In (ToRemote c m) ev.
Lemma remote_free_app e1 e2 : remote_free e1 -> remote_free e2 -> remote_free (e1 ++ e2).
Proof. intros A B c m I. apply in_app_or in I as [I|I]; [eapply A|eapply B]; eauto. Qed.
Lemma lost_remote f s : sat (lost f s) (fun _ ev => remote_free ev).
Proof.
  unfold lost. destruct (by_sock f s) as [n|] eqn:B; cbn; auto. unfold unadvertise. rewrite B. intros c m I. cbn in I.
  destruct I as [I|[I|[I|I]]]; try discriminate. apply in_flat_map in I as [t [_ I]]. destruct (_ =? _); [|contradiction].
  unfold failed in I. destruct (q_kind _); cbn in I; intuition discriminate.
Qed.
Lemma send_remote ok n w s : In n (s_conns s) -> NoDup (map c_sock (s_conns s)) -> sat (send ok (c_sock n) w s) (fun _ ev => forall c m, In (ToRemote c m) ev <-> ok = true /\ c = c_ipc n /\ m = w).
Proof.
  intros I N. unfold send. rewrite (by_sock_in s n N I). destruct ok.
  - cbn. intros c m. split; [intros [H|[]]; injection H as <- <-; auto|]. intros [_ [-> ->]]; auto.
  - apply (sat_bind _ _ _ _ (lost_remote (c_sock n) s)). intros s1 ev H. cbn. intros c m. rewrite in_app_iff. cbn. split; [|intros [X _]; discriminate].
    intros [J|[J|[]]]; [exfalso; eapply H; eauto|discriminate].
Qed.
Lemma involve_remote t f s : sat (involve t f s) (fun s' ev => remote_free ev /\ s_conns s' = s_conns s).
Proof.
  unfold involve. destruct t as [[g b]|]; [|cbn; split; auto; intros c m []]. destruct (associate _ _ _) as [first l].
  destruct first; [destruct (by_sock f s)|]; cbn; split; auto; intros ? ? I; cbn in I; intuition discriminate.
Qed.
Lemma request_remote ok n q s : In n (s_conns s) -> NoDup (map c_sock (s_conns s)) ->
  sat (inward_step ok n (InRequest q) s) (fun s' ev => forall c m, In (ToRemote c m) ev ->
    ok = true /\ c = c_ipc n /\ exists v, m = WRequest v q).
Proof.
  intros I N. cbn -[sat]. destruct (q_kind q).
  - unfold call_request. destruct (has_corr _ _); [cbn; intros c m H; intuition discriminate|]. destruct (c_old n).
    + apply (sat_bind _ _ _ _ (involve_remote _ _ _)). intros s1 ev [H E]. cbn in E. rewrite <- E in I, N.
      apply (sat_weaken _ _ _ (send_remote ok n (WRequest true q) s1 I N)). intros s2 ev2 H2 c m J. apply in_app_or in J as [J|J]; [exfalso; eapply H; eauto|].
      apply H2 in J as [A [B C]]. eauto.
    + pose proof (send_remote ok n (WRequest false q) s I N) as A. destruct (send _ _ _ _) as [s1 ev| |]; try exact Logic.I. destruct ok; [|exact Logic.I]. cbn in A.
      cbn -[involve]. pose proof (involve_remote (q_trid q) (c_sock n) (add_task (c_sock n) q s1)) as B. destruct (involve _ _ _); auto. cbn in *. intros c m J.
      apply in_app_or in J as [J|J]; [apply A in J as [X [Y Z0]]; eauto|exfalso; eapply B; eauto].
  - unfold queue_request. apply (sat_bind _ _ _ _ (send_remote ok n (WRequest false q) s I N)). intros s1 ev H. apply (sat_weaken _ _ _ (involve_remote _ _ _)).
    intros s2 ev2 [H2 _] c m J. apply in_app_or in J as [J|J]; [apply H in J as [X [Y Z0]]; eauto|exfalso; eapply H2; eauto].
  - unfold queue_request. apply (sat_bind _ _ _ _ (send_remote ok n (WRequest false q) s I N)). intros s1 ev H. apply (sat_weaken _ _ _ (involve_remote _ _ _)).
    intros s2 ev2 [H2 _] c m J. apply in_app_or in J as [J|J]; [apply H in J as [X [Y Z0]]; eauto|exfalso; eapply H2; eauto].
  - unfold connect_request. apply (sat_bind _ _ _ _ (involve_remote _ _ _)). intros s1 ev [H E]. cbn in E. rewrite <- E in I, N.
    apply (sat_weaken _ _ _ (send_remote ok n (WRequest (c_old n) q) s1 I N)). intros s2 ev2 H2 c m J. apply in_app_or in J as [J|J]; [exfalso; eapply H; eauto|].
    apply H2 in J as [A [B C]]. eauto.
Qed.
(* a request is sent, or refused *)
Lemma request_sent n q s : In n (s_conns s) -> NoDup (map c_sock (s_conns s)) ->
  looped s q (inward_step true n (InRequest q) s) \/
  sat (inward_step true n (InRequest q) s) (fun s' ev => count (fun e => match e with ToRemote _ _ => true | _ => false end) ev = 1%nat /\ exists v, In (ToRemote (c_ipc n) (WRequest v q)) ev).
Proof.
  intros I N. assert (CI : forall t f s, sat (involve t f s) (fun s' ev => count (fun e => match e with ToRemote _ _ => true | _ => false end) ev = 0%nat /\ s_conns s' = s_conns s)).
  { intros t f s0. unfold involve. destruct t as [[g b]|]; [|cbn; auto]. destruct (associate _ _ _) as [first l]. destruct first; [destruct (by_sock f s0)|]; cbn; auto. }
  assert (CS : forall w s1, In n (s_conns s1) -> NoDup (map c_sock (s_conns s1)) -> send true (c_sock n) w s1 = Done s1 [ToRemote (c_ipc n) w]) by (intros w s1 I1 N1; unfold send; now rewrite (by_sock_in s1 n N1 I1)).
  cbn -[sat]. destruct (q_kind q) eqn:K.
  - unfold call_request. destruct (has_corr _ _) eqn:H; [left; repeat split; auto|]. right. destruct (c_old n).
    + apply (sat_bind _ _ _ _ (CI _ _ _)). intros s1 ev [H1 E]. cbn in E. rewrite <- E in I, N. rewrite (CS _ s1 I N). cbn. rewrite count_app, H1. split; auto. exists true. apply in_or_app; cbn; auto.
    + rewrite (CS _ s I N). cbn -[involve]. pose proof (CI (q_trid q) (c_sock n) (add_task (c_sock n) q s)) as B. destruct (involve _ _ _); auto. cbn in *. destruct B as [-> _]. split; auto. exists false; auto.
  - right. unfold queue_request. rewrite (CS _ s I N). cbn -[involve]. pose proof (CI (q_trid q) (c_sock n) (add_task (c_sock n) q s)) as B. destruct (involve _ _ _); auto. cbn in *. destruct B as [-> _]. split; auto. exists false; auto.
  - right. unfold queue_request. rewrite (CS _ s I N). cbn -[involve]. pose proof (CI (q_trid q) (c_sock n) (add_task (c_sock n) q s)) as B. destruct (involve _ _ _); auto. cbn in *. destruct B as [-> _]. split; auto. exists false; auto.
  - right. unfold connect_request. apply (sat_bind _ _ _ _ (CI _ _ _)). intros s1 ev [H1 E]. cbn in E. rewrite <- E in I, N. rewrite (CS _ s1 I N). cbn. rewrite count_app, H1. split; auto. exists (c_old n). apply in_or_app; cbn; auto.
Qed.
Lemma unadvertise_remote f s : remote_free (unadvertise f s).
Proof. unfold unadvertise. destruct (by_sock f s); intros ? ? I; cbn in I; intuition discriminate. Qed.
Lemma close_all_remote l s : sat (close_all l s) (fun _ ev => remote_free ev).
Proof.
  revert s. induction l as [|[f x] l IH]; intro s; cbn -[sat]; [intros c m []|].
  apply (sat_bind _ _ _ (fun _ ev => remote_free ev)).
  - apply (sat_bind _ _ _ _ (lost_remote f s)). intros s1 ev H. cbn. apply remote_free_app; auto. intros c m I. destruct x; cbn in I; intuition discriminate.
  - intros s1 ev H. apply (sat_weaken _ _ _ (IH s1)). intros s2 ev2 H2. now apply remote_free_app.
Qed.
Lemma leave_all_remote l s : sat (leave_all l s) (fun _ ev => remote_free ev).
Proof.
  revert s. induction l as [|n l IH]; intro s; cbn -[sat leave]; [intros c m []|].
  apply (sat_bind _ _ _ (fun _ ev => remote_free ev)); [cbn; apply unadvertise_remote|]. intros s1 ev H. apply (sat_weaken _ _ _ (IH s1)). intros s2 ev2 H2. now apply remote_free_app.
Qed.
Lemma wire_cause h i ev c m : happens (h ++ [(i, ev)]) -> In (ToRemote c m) ev -> comes_from h c m i.
Proof.
  intros H J. destruct (happens_snoc _ _ _ H) as [s [s' [R [P [E R']]]]]. pose proof (reach_inv s h R) as [W _ OP _].
  destruct i as [f x old|x ok mm|x ok mm|x|g|x| |].
  - cbn in E. injection E as _ <-. destruct J as [J|[]]; discriminate.
  - cbn -[inward_step] in E. destruct (by_ipc x s) as [n|] eqn:B; [|injection E as _ <-; destruct J]. apply by_ipc_some in B as [B1 B2].
    destruct mm as [q|k data|k|r k p t data|k p data|data].
    + destruct (sat_done _ _ _ _ E (request_remote ok n q s B1 (wf_sock _ W)) _ _ J) as [-> [-> [v ->]]]. cbn. now rewrite B2.
    + cbn in E. apply (sat_done _ _ _ _ E (send_remote ok n _ s B1 (wf_sock _ W))) in J as [-> [-> ->]]. cbn. now rewrite B2.
    + cbn in E. unfold disconnect_conversation in E. destruct (first_task k s) as [t|] eqn:F; [|injection E as _ <-; destruct J].
      destruct (q_kind (k_request t)) eqn:K; try (injection E as _ <-; destruct J; fail).
      destruct (by_sock (k_sock t) s) as [m0|] eqn:B; [|injection E as _ <-; destruct J as [J|[]]; discriminate].
      unfold send in E. rewrite B in E. destruct ok; [|destruct (bind _ _); discriminate]. cbn in E. injection E as _ <-. destruct J as [J|[J|[]]]; [|discriminate]. injection J as <- <-.
      cbn. split; [eauto|]. intro O1. destruct (reach_tight s h R O1) as [T G]. apply find_some in F as [F1 F2]. apply Z.eqb_eq in F2.
      destruct (G t F1) as [m1 [ok' [J1 [J2 J3]]]]. apply by_sock_some in B as [B3 B4]. assert (m0 = m1) by (apply (same_sock s); [apply W|auto|auto|congruence]). subst m1.
      exists (q_from (k_request t)), ok', (k_request t). split; auto. apply is_request_true. auto.
    + cbn -[add_dest] in E. assert (B1' : In n (s_conns (add_dest k p (c_sock n) s))) by now rewrite add_dest_conns.
      assert (N' : NoDup (map c_sock (s_conns (add_dest k p (c_sock n) s)))) by (rewrite add_dest_conns; apply W).
      apply (sat_done _ _ _ _ E (send_remote ok n _ _ B1' N')) in J as [-> [-> ->]]. cbn. exists p. now rewrite B2.
    + cbn -[add_dest] in E. destruct (s_down s); [injection E as _ <-; destruct J as [J|[]]; discriminate|]. destruct (is_leaving _ _); [injection E as _ <-; destruct J as [J|[]]; discriminate|].
      assert (B1' : In n (s_conns (add_dest k p (c_sock n) s))) by now rewrite add_dest_conns.
      assert (N' : NoDup (map c_sock (s_conns (add_dest k p (c_sock n) s)))) by (rewrite add_dest_conns; apply W).
      apply (sat_done _ _ _ _ E (send_remote ok n _ _ B1' N')) in J as [-> [-> ->]]. cbn. exists p. now rewrite B2.
    + cbn in E. destruct (s_down s); [injection E as _ <-; destruct J|]. destruct (is_leaving _ _); [injection E as _ <-; destruct J|].
      apply (sat_done _ _ _ _ E (send_remote ok n _ s B1 (wf_sock _ W))) in J as [-> [-> ->]]. cbn. now rewrite B2.
  - cbn -[outward_step] in E. destruct (by_ipc x s) as [n|] eqn:B; [|injection E as _ <-; destruct J]. apply by_ipc_some in B as [B1 B2].
    destruct mm as [nk k code data|k y data|r k data|k ss qs data|k]; cbn -[leave take_dest] in E.
    + unfold task_reply in E. destruct (first_task k s) as [t|]; [|injection E as _ <-; destruct J]. destruct (kind_eqb _ _); [|injection E as _ <-; destruct J].
      assert (U : ~ In (ToRemote c m) (if code =? TPENOENT then unadvertise_service (k_sock t) (q_name (k_request t)) s else [])).
      { destruct (code =? TPENOENT); auto. unfold unadvertise_service. destruct (by_sock _ s); cbn; intuition discriminate. }
      destruct nk; cbn -[TPENOENT] in E; injection E as _ <-; cbn -[TPENOENT] in J; rewrite ?in_app_iff in J; cbn -[TPENOENT] in J; intuition discriminate.
    + unfold task_send in E. destruct (first_task k s) as [t|]; [|injection E as _ <-; destruct J]. destruct (q_kind _); cbn in E; injection E as _ <-; cbn in J; intuition discriminate.
    + cbn in E. injection E as _ <-. destruct (find _ _); cbn in J; intuition discriminate.
    + cbn in E. injection E as _ <-. rewrite !in_app_iff in J. destruct (find _ _), ss, qs; cbn in J; intuition discriminate.
    + pose proof (leave_good true n s W B1) as G0.
      assert (Q : sat (bind (leave true (c_sock n) s) (fun s => send ok (c_sock n) (WDisconnected k) s)) (fun _ ev => forall c m, In (ToRemote c m) ev -> ok = true /\ c = c_ipc n /\ m = WDisconnected k)).
      { apply (sat_bind _ _ _ (fun s1 ev => remote_free ev /\ s_conns s1 = s_conns s)); [cbn; split; auto; apply unadvertise_remote|].
        intros s1 e1 [F1 F2]. assert (B1' : In n (s_conns s1)) by now rewrite F2. assert (N' : NoDup (map c_sock (s_conns s1))) by (rewrite F2; apply W).
        apply (sat_weaken _ _ _ (send_remote ok n (WDisconnected k) s1 B1' N')). intros s2 e2 H2 c0 m0 I0. apply in_app_or in I0 as [I0|I0]; [exfalso; eapply F1; eauto|]. now apply H2 in I0. }
      apply (sat_done _ _ _ _ E Q) in J as [-> [-> ->]]. cbn. now rewrite B2.
  - cbn in E. destruct (by_ipc x s) as [n|] eqn:B; [|injection E as _ <-; destruct J].
    assert (Q : sat (bind (lost (c_sock n) s) (fun s => Done s [Lost (c_sock n)])) (fun _ ev => remote_free ev)).
    { apply (sat_bind _ _ _ _ (lost_remote (c_sock n) s)). intros s1 e1 H1. apply remote_free_app; auto. intros c0 m0 [I0|[]]; discriminate. }
    exfalso. apply (sat_done _ _ _ _ E Q _ _ J).
  - cbn in E. injection E as _ <-. destruct J.
  - cbn -[leave] in E. destruct (by_ipc x s) as [n|] eqn:B; [|injection E as _ <-; destruct J]. cbn in E. injection E as _ <-. exfalso. apply (unadvertise_remote _ _ _ _ J).
  - cbn in E. exfalso. apply (sat_done _ _ _ _ E (leave_all_remote _ _) _ _ J).
  - cbn in E. exfalso. apply (sat_done _ _ _ _ E (close_all_remote _ _) _ _ J).
Qed.

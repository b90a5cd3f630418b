(* As long as it's orderly: what is waited for, and what transactions are associated with, are connections there are. *)
From Coq Require Import ZArith List Bool Lia.
From Verif Require Import GwoModel GwoSpec GwoProofs GwoInv GwoKeep.
Import ListNotations.
Local Open Scope Z_scope.

Definition from (s : state) (X : task -> Prop) (s' : state) : Prop := forall t, In t (s_tasks s') -> In t (s_tasks s) \/ X t.
Lemma from_trans s X s1 s2 : from s X s1 -> from s1 X s2 -> from s X s2.
Proof. intros A B t I. destruct (B t I); auto. Qed.
Lemma from_same s X s' : s_tasks s' = s_tasks s -> from s X s'.
Proof. intros E t. rewrite E. auto. Qed.
Lemma wf_assoc_ok s : wf s -> assoc_ok (s_assoc s).
Proof. intros [A B C D K F]. split; auto. Qed.
Lemma tight_same s s' : tight s -> s_conns s' = s_conns s -> s_tasks s' = s_tasks s -> s_assoc s' = s_assoc s -> tight s'.
Proof. intros [A B] H1 H2 H3. constructor; unfold live in *; rewrite ?H1, ?H2, ?H3; auto. Qed.

Lemma lost_tight f s : wf s -> tight s -> sat (lost f s) (fun s' _ => tight s').
Proof.
  intros W [A B]. unfold lost. destruct (by_sock f s); cbn; auto. constructor; cbn.
  - intros t I. apply filter_In in I as [I N]. apply negb_true_iff, Z.eqb_neq in N. eapply live_filter; [reflexivity|apply (A t I)|auto].
  - intros g fs f' I J. assert (X : assoc g f' (dissociate f (s_assoc s))) by (exists fs; auto).
    apply (dissociate_assoc _ _ _ _ (wf_assoc_ok _ W)) in X as [[fs0 [I0 J0]] N]. eapply live_filter; [reflexivity|apply (B g fs0 f' I0 J0)|auto].
Qed.
Lemma lost_from f s X : sat (lost f s) (fun s' _ => from s X s').
Proof. unfold lost. destruct (by_sock f s); cbn; auto. intros t I. cbn in I. apply filter_In in I as [I _]. auto. Qed.
Lemma send_tight ok f m s : wf s -> tight s -> sat (send ok f m s) (fun s' _ => tight s').
Proof.
  intros W T. unfold send. destruct (by_sock f s); cbn; auto. destruct ok; cbn; auto.
  apply (sat_bind _ _ _ _ (lost_tight f s W T)). intros s1 ev H. exact H.
Qed.
Lemma send_from ok f m s X : sat (send ok f m s) (fun s' _ => from s X s').
Proof.
  unfold send. destruct (by_sock f s); [|now apply from_same]. destruct ok; [now apply from_same|].
  apply (sat_bind _ _ _ _ (lost_from f s X)). intros s1 ev H. exact H.
Qed.
Lemma involve_tight t f s : wf s -> tight s -> live f s -> sat (involve t f s) (fun s' _ => tight s').
Proof.
  intros W T L. unfold involve. destruct t as [[g b]|]; [|exact T]. destruct (associate g f (s_assoc s)) as [first l] eqn:E.
  assert (T' : tight (State (s_conns s) (s_tasks s) (s_dests s) l (s_leaving s) (s_down s))).
  { destruct T as [A B]. constructor; [exact A|]. cbn. intros g' fs f' I J. assert (X : assoc g' f' l) by (exists fs; auto).
    apply (associate_assoc _ _ _ _ _ _ _ E) in X as [[fs0 [I0 J0]]|[-> ->]]; [apply (B g' fs0 f' I0 J0)|exact L]. }
  destruct first; [destruct (by_sock f s)|]; exact T'.
Qed.
Lemma involve_from t f s X : sat (involve t f s) (fun s' _ => from s X s').
Proof. apply (sat_weaken _ _ _ (involve_tasks t f s)). intros s' ev [E _]. now apply from_same. Qed.
Lemma add_task_tight f q s : tight s -> live f s -> tight (add_task f q s).
Proof. intros [A B] L. constructor; cbn; auto. intros t I. apply in_app_or in I as [I|[<- |[]]]; [apply (A t I)|exact L]. Qed.

Definition is_task (n : conn) (q : request) (t : task) : Prop := t = Task (c_sock n) q.
Lemma add_task_from n q s : from s (is_task n q) (add_task (c_sock n) q s).
Proof. intros t I. cbn in I. apply in_app_or in I as [I|[<- |[]]]; auto. right; reflexivity. Qed.

Lemma call_tight ok n q s : wf s -> tight s -> In n (s_conns s) -> sat (call_request ok n q s) (fun s' _ => tight s').
Proof.
  intros W T I. assert (L : live (c_sock n) s) by (exists n; auto). unfold call_request. destruct (has_corr _ _); [exact T|]. destruct (c_old n).
  - pose proof (involve_tight (q_trid q) (c_sock n) (add_task (c_sock n) q s) (add_task_wf _ _ _ W) (add_task_tight _ q _ T L) L) as A.
    pose proof (involve_good (q_trid q) (c_sock n) (add_task (c_sock n) q s) (add_task_wf _ _ _ W)) as B.
    destruct (involve _ _ _) as [s1 ev| |]; try exact Logic.I. cbn in A, B. cbn -[send].
    pose proof (send_tight ok (c_sock n) (WRequest true q) s1 (proj1 B) A) as C. destruct (send _ _ _ _); auto.
  - destruct ok; [|destruct (send _ _ _ _); exact Logic.I]. unfold send. rewrite (by_sock_in s n (wf_sock _ W) I). cbn -[involve].
    pose proof (involve_tight (q_trid q) (c_sock n) (add_task (c_sock n) q s) (add_task_wf _ _ _ W) (add_task_tight _ q _ T L) L) as A.
    destruct (involve _ _ _); auto.
Qed.
Lemma call_from ok n q s : sat (call_request ok n q s) (fun s' _ => from s (is_task n q) s').
Proof.
  unfold call_request. destruct (has_corr _ _); [now apply from_same|]. destruct (c_old n).
  - apply (sat_bind _ _ _ _ (involve_from _ _ _ (is_task n q))). intros s1 ev H. apply (sat_weaken _ _ _ (send_from _ _ _ _ (is_task n q))). intros s2 ev2 H2.
    apply (from_trans _ _ _ _ (add_task_from n q s)). apply (from_trans _ _ _ _ H H2).
  - pose proof (send_from ok (c_sock n) (WRequest false q) s (is_task n q)) as A. destruct (send _ _ _ _) as [s1 ev| |]; try exact I. destruct ok; [|exact I].
    cbn in A. pose proof (involve_from (q_trid q) (c_sock n) (add_task (c_sock n) q s1) (is_task n q)) as B. cbn -[involve]. destruct (involve _ _ _); auto.
    cbn in *. apply (from_trans _ _ _ _ A). apply (from_trans _ _ _ _ (add_task_from n q s1) B).
Qed.
Lemma queue_tight n q s : wf s -> tight s -> In n (s_conns s) -> sat (queue_request true n q s) (fun s' _ => tight s').
Proof.
  intros W T I. assert (L : live (c_sock n) s) by (exists n; auto). unfold queue_request, send. rewrite (by_sock_in s n (wf_sock _ W) I). cbn -[involve].
  pose proof (involve_tight (q_trid q) (c_sock n) (add_task (c_sock n) q s) (add_task_wf _ _ _ W) (add_task_tight _ q _ T L) L) as A.
  destruct (involve _ _ _); auto.
Qed.
Lemma queue_from ok n q s : sat (queue_request ok n q s) (fun s' _ => from s (is_task n q) s').
Proof.
  unfold queue_request. apply (sat_bind _ _ _ _ (send_from _ _ _ _ (is_task n q))). intros s1 ev H.
  apply (sat_weaken _ _ _ (involve_from _ _ _ (is_task n q))). intros s2 ev2 H2. apply (from_trans _ _ _ _ H). apply (from_trans _ _ _ _ (add_task_from n q s1) H2).
Qed.
Lemma connect_tight ok n q s : wf s -> tight s -> In n (s_conns s) -> sat (connect_request ok n q s) (fun s' _ => tight s').
Proof.
  intros W T I. assert (L : live (c_sock n) s) by (exists n; auto). unfold connect_request.
  pose proof (involve_tight (q_trid q) (c_sock n) (add_task (c_sock n) q s) (add_task_wf _ _ _ W) (add_task_tight _ q _ T L) L) as A.
  pose proof (involve_good (q_trid q) (c_sock n) (add_task (c_sock n) q s) (add_task_wf _ _ _ W)) as B.
  destruct (involve _ _ _) as [s1 ev| |]; try exact Logic.I. cbn in A, B. cbn -[send].
  pose proof (send_tight ok (c_sock n) (WRequest (c_old n) q) s1 (proj1 B) A) as C. destruct (send _ _ _ _); auto.
Qed.
Lemma connect_from ok n q s : sat (connect_request ok n q s) (fun s' _ => from s (is_task n q) s').
Proof.
  unfold connect_request. apply (sat_bind _ _ _ _ (involve_from _ _ _ (is_task n q))). intros s1 ev H.
  apply (sat_weaken _ _ _ (send_from _ _ _ _ (is_task n q))). intros s2 ev2 H2.
  apply (from_trans _ _ _ _ (add_task_from n q s)). apply (from_trans _ _ _ _ H H2).
Qed.
Lemma without_task_in k l t : In t (without_task k l) -> In t l.
Proof. induction l as [|a l IH]; cbn; auto. destruct (q_corr (k_request a) =? k); cbn; [auto|intros [H|H]; auto]. Qed.
Lemma drop_task_tight k s : tight s -> tight (drop_task k s).
Proof. intros [A B]. constructor; cbn; auto. intros t I. apply without_task_in in I. apply (A t I). Qed.
Lemma drop_task_from k s X : from s X (drop_task k s).
Proof. intros t I. cbn in I. apply without_task_in in I. auto. Qed.
Lemma add_dest_tight k p f s : tight s -> tight (add_dest k p f s).
Proof. intro T. unfold add_dest. destruct (existsb _ _); auto. apply (tight_same s); auto. Qed.
Lemma disconnect_both ok k s X : tight s -> sat (disconnect_conversation ok k s) (fun s' _ => tight s' /\ from s X s').
Proof.
  intro T. assert (N : sat (emit s []) (fun s' _ => tight s' /\ from s X s')) by (split; [exact T|now apply from_same]).
  unfold disconnect_conversation. destruct (first_task k s) as [t|]; auto. destruct (q_kind (k_request t)); auto.
  destruct (by_sock (k_sock t) s) eqn:B.
  - unfold send. rewrite B. destruct ok; [|destruct (bind _ _); exact I]. cbn. split; [now apply drop_task_tight|apply drop_task_from].
  - cbn. split; [now apply drop_task_tight|apply drop_task_from].
Qed.
Lemma sat_and r (P Q : state -> list effect -> Prop) : sat r P -> sat r Q -> sat r (fun s ev => P s ev /\ Q s ev).
Proof. destruct r; cbn; auto. Qed.

(* a request, and what it adds *)
Definition adds (n : conn) (m : inward) (t : task) : Prop := match m with InRequest q => is_task n q t | _ => False end.
Lemma inward_from ok n m s : sat (inward_step ok n m s) (fun s' _ => from s (adds n m) s').
Proof.
  destruct m as [q|k data|k|r k p t data|k p data|data]; cbn -[sat].
  - destruct (q_kind q); [apply call_from|apply queue_from|apply queue_from|apply connect_from].
  - apply send_from.
  - unfold disconnect_conversation. destruct (first_task k s) as [t|]; [|now apply from_same]. destruct (q_kind (k_request t)); try now apply from_same.
    destruct (by_sock (k_sock t) s) eqn:B; [|apply drop_task_from].
    unfold send. rewrite B. destruct ok; [|destruct (bind _ _); exact I]. apply drop_task_from.
  - apply (sat_weaken _ _ _ (send_from ok (c_sock n) (WResource r k t data) (add_dest k p (c_sock n) s) (fun _ => False))).
    intros s' _ H x J. destruct (H x J) as [K|[]]. rewrite add_dest_tasks in K. auto.
  - destruct (s_down s); [now apply from_same|]. destruct (is_leaving _ _); [now apply from_same|].
    apply (sat_weaken _ _ _ (send_from ok (c_sock n) (WDiscover (Some k) data) (add_dest k p (c_sock n) s) (fun _ => False))).
    intros s' _ H x J. destruct (H x J) as [K|[]]. rewrite add_dest_tasks in K. auto.
  - destruct (s_down s); [now apply from_same|]. destruct (is_leaving _ _); [now apply from_same|]. apply send_from.
Qed.
Lemma inward_tight ok n m s : wf s -> tight s -> In n (s_conns s) ->
  (forall q, m = InRequest q -> ok = false -> q_kind q = Call \/ q_kind q = Connect) -> sat (inward_step ok n m s) (fun s' _ => tight s').
Proof.
  intros W T I O. destruct m as [q|k data|k|r k p t data|k p data|data]; cbn -[sat].
  - specialize (O q eq_refl). destruct (q_kind q) eqn:K; [now apply call_tight| | |now apply connect_tight];
      (destruct ok; [now apply queue_tight|destruct (O eq_refl); congruence]).
  - now apply send_tight.
  - apply (sat_weaken _ _ _ (disconnect_both ok k s (fun _ => False) T)). tauto.
  - apply send_tight; [now apply add_dest_wf|now apply add_dest_tight].
  - destruct (s_down s); [exact T|]. destruct (is_leaving _ _); [exact T|]. apply send_tight; [now apply add_dest_wf|now apply add_dest_tight].
  - destruct (s_down s); [exact T|]. destruct (is_leaving _ _); [exact T|]. now apply send_tight.
Qed.
Lemma outward_tight ok n m s : wf s -> tight s -> In n (s_conns s) -> sat (outward_step ok n m s) (fun s' _ => tight s').
Proof.
  intros W T I. destruct m as [nk k code data|k x data|r k data|k ss qs data|k]; cbn -[sat leave take_dest].
  - unfold task_reply. destruct (first_task k s) as [t|]; [|exact T]. destruct (kind_eqb _ nk); [|exact T]. destruct nk; try (now apply drop_task_tight). exact T.
  - unfold task_send. destruct (first_task k s) as [t|]; [|exact T]. destruct (q_kind _); try exact T. destruct x; [now apply drop_task_tight|exact T].
  - cbn. apply (tight_same s); auto.
  - cbn. apply (tight_same s); auto.
  - pose proof (leave_good true n s W I) as G. unfold leave in *. cbn in G |- *. 
    set (s1 := State _ _ _ _ _ _) in *. pose proof (send_tight ok (c_sock n) (WDisconnected k) s1 (proj1 G) ltac:(apply (tight_same s); auto)) as S1.
    destruct (send ok (c_sock n) (WDisconnected k) s1); auto.
Qed.
Lemma outward_from ok n m s X : sat (outward_step ok n m s) (fun s' _ => from s X s').
Proof.
  destruct m as [nk k code data|k x data|r k data|k ss qs data|k]; cbn -[sat leave take_dest].
  - unfold task_reply. destruct (first_task k s) as [t|]; [|now apply from_same]. destruct (kind_eqb _ nk); [|now apply from_same].
    destruct nk; try (now apply drop_task_from). now apply from_same.
  - unfold task_send. destruct (first_task k s) as [t|]; [|now apply from_same]. destruct (q_kind _); try now apply from_same. destruct x; [now apply drop_task_from|now apply from_same].
  - now apply from_same.
  - now apply from_same.
  - apply (sat_bind _ _ _ (fun s' _ => from s X s')); [now apply from_same|]. intros s1 ev H. apply (sat_weaken _ _ _ (send_from _ _ _ _ X)).
    intros s2 _ H2. apply (from_trans _ _ _ _ H H2).
Qed.
Lemma close_all_tight l s : wf s -> tight s -> sat (close_all l s) (fun s' _ => tight s').
Proof.
  revert s. induction l as [|[f x] l IH]; intros s W T; cbn -[sat]; [exact T|].
  apply (sat_bind _ _ _ (fun s' _ => tight s' /\ wf s')).
  - pose proof (lost_tight f s W T) as A. pose proof (lost_good f s W) as B. destruct (lost f s); auto. cbn in *. split; [auto|apply B].
  - intros s1 ev [T1 W1]. now apply IH.
Qed.
Lemma close_all_from l s X : sat (close_all l s) (fun s' _ => from s X s').
Proof.
  revert s. induction l as [|[f x] l IH]; intros s; cbn -[sat]; [now apply from_same|].
  apply (sat_bind _ _ _ (fun s' _ => from s X s')).
  - apply (sat_bind _ _ _ _ (lost_from f s X)). intros s1 ev H. exact H.
  - intros s1 ev H. apply (sat_weaken _ _ _ (IH s1)). intros s2 _ H2. apply (from_trans _ _ _ _ H H2).
Qed.
Lemma leave_all_kept l s : sat (leave_all l s) (fun s' _ => s_tasks s' = s_tasks s /\ s_conns s' = s_conns s /\ s_assoc s' = s_assoc s /\ s_dests s' = s_dests s).
Proof.
  revert s. induction l as [|n l IH]; intros s; cbn -[sat leave]; [now cbn|]. cbn. 
  set (s1 := State _ _ _ _ _ _). specialize (IH s1). destruct (leave_all l s1); auto.
Qed.

Definition step_adds (i : input) (s : state) (t : task) : Prop :=
  match i with Inward c _ m => exists n, by_ipc c s = Some n /\ adds n m t | _ => False end.
Lemma step_from i s : sat (step i s) (fun s' _ => from s (step_adds i s) s').
Proof.
  destruct i as [f c old|c ok m|c ok m|c|g|c| |]; cbn -[sat leave shutdown idle]; try (now apply from_same).
  - destruct (by_ipc c s) as [n|] eqn:E; [|now apply from_same]. apply (sat_weaken _ _ _ (inward_from ok n m s)). intros s' _ H t I.
    destruct (H t I); auto. right. exists n. auto.
  - destruct (by_ipc c s) as [n|]; [|now apply from_same]. apply outward_from.
  - destruct (by_ipc c s) as [n|]; [|now apply from_same]. apply (sat_bind _ _ _ _ (lost_from (c_sock n) s (step_adds (Broken c) s))). intros s1 ev H. exact H.
  - destruct (by_ipc c s) as [n|]; now apply from_same.
  - unfold shutdown. apply (sat_weaken _ _ _ (leave_all_kept _ _)). intros s' _ [H _]. now apply from_same.
  - apply close_all_from.
Qed.
Definition orderly_input (i : input) : Prop :=
  match i with Inward _ false (InRequest q) => q_kind q = Call \/ q_kind q = Connect | _ => True end.
Lemma orderly_snoc h i ev : orderly (h ++ [(i, ev)]) -> orderly h /\ orderly_input i.
Proof.
  unfold orderly. rewrite inputs_snoc. setoid_rewrite in_app_iff. intro H. split.
  - intros c q I. apply (H c q); auto.
  - destruct i as [|c [] [] | | | | | | ]; cbn; auto. apply (H c q). cbn; auto.
Qed.
Lemma step_tight i s : wf s -> tight s -> orderly_input i -> sat (step i s) (fun s' _ => tight s').
Proof.
  intros W T O. destruct i as [f c old|c ok m|c ok m|c|g|c| |]; cbn -[sat leave shutdown idle].
  - destruct T as [A B]. constructor; cbn; [intros t I; destruct (A t I) as [n [J1 J2]]|intros g fs f' I J; destruct (B g fs f' I J) as [n [J1 J2]]];
      (exists n; split; auto; cbn; apply in_or_app; auto).
  - destruct (by_ipc c s) as [n|] eqn:E; [|exact T]. apply by_ipc_some in E as [E _]. apply inward_tight; auto. intros q -> ->. exact O.
  - destruct (by_ipc c s) as [n|] eqn:E; [|exact T]. apply by_ipc_some in E as [E _]. now apply outward_tight.
  - destruct (by_ipc c s) as [n|] eqn:E; [|exact T]. apply (sat_bind _ _ _ _ (lost_tight _ s W T)). intros s1 ev H. exact H.
  - cbn. destruct T as [A B]. constructor; cbn; auto. intros g' fs f' I J. apply filter_In in I as [I _]. apply (B g' fs f' I J).
  - destruct (by_ipc c s) as [n|] eqn:E; [|exact T]. cbn. apply (tight_same s); auto.
  - unfold shutdown. apply (sat_weaken _ _ _ (leave_all_kept _ _)). intros s' _ [H1 [H2 [H3 H4]]]. apply (tight_same s); auto.
  - now apply close_all_tight.
Qed.

Definition origin (h : history) (t : task) (s : state) : Prop :=
  exists n ok, In n (s_conns s) /\ c_sock n = k_sock t /\ In (Inward (c_ipc n) ok (InRequest (k_request t))) (inputs h).
Lemma reach_tight s h : reach s h -> orderly h -> tight s /\ forall t, In t (s_tasks s) -> origin h t s.
Proof.
  induction 1 as [|s h i s' ev R IH P E]; intro O; [split; [constructor; cbn; intros; contradiction|cbn; tauto]|].
  apply orderly_snoc in O as [O1 O2]. destruct (IH O1) as [T G]. pose proof (reach_inv s h R) as [W _ _ _].
  pose proof (sat_done _ _ _ _ E (step_tight i s W T O2)) as T'. cbn in T'. split; auto. intros t I.
  pose proof (reach_inv s' _ (reach_step _ _ _ _ _ R P E)) as [W' _ _ _].
  destruct (ti_tasks _ T' t I) as [n' [J1 J2]].
  assert (SUB : (forall f c old, i <> Connected f c old) -> In n' (s_conns s)).
  { intro N. pose proof (sat_done _ _ _ _ E (step_good i s W N)) as [_ [[ff F] _]]. rewrite F in J1. now apply filter_In in J1 as [J1 _]. }
  destruct (sat_done _ _ _ _ E (step_from i s) t I) as [I0|A].
  - destruct (G t I0) as [n [ok [K1 [K2 K3]]]]. assert (n = n').
    { destruct (match i with Connected _ _ _ => true | _ => false end) eqn:NC.
      - destruct i; try discriminate NC. cbn in E. injection E as <- <-. cbn in J1.
        apply (same_sock (State (s_conns s ++ [Conn f c old]) (s_tasks s) (s_dests s) (s_assoc s) (s_leaving s) (s_down s))); cbn; auto; [apply W'|apply in_or_app; auto|congruence].
      - apply (same_sock s); [apply W|auto| |congruence]. apply SUB. intros; intros ->; discriminate. }
    subst n'. exists n, ok. split; auto. split; auto. rewrite inputs_snoc. apply in_or_app; auto.
  - destruct i as [|c ok m| | | | | | ]; cbn in A; try contradiction. destruct A as [n [B A]]. destruct m as [q| | | | |]; cbn in A; try contradiction.
    unfold is_task in A. subst t. cbn in J2. apply by_ipc_some in B as [B1 B2].
    assert (n = n') by (apply (same_sock s); [apply W|auto|apply SUB; discriminate|auto]). subst n'.
    exists n, ok. cbn. split; auto. split; auto. rewrite inputs_snoc. apply in_or_app. right. rewrite B2. cbn; auto.
Qed.

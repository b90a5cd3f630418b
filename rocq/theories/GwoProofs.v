(* Lemmas of the outbound: what each function does to the state and what it sends. *)
From Coq Require Import ZArith List Bool Lia.
From Verif Require Import GwoModel GwoSpec.
Import ListNotations.
Local Open Scope Z_scope.

Lemma count_app {A} (f : A -> bool) l1 l2 : count f (l1 ++ l2) = (count f l1 + count f l2)%nat.
Proof. induction l1; cbn; lia. Qed.
Lemma count_zero {A} (f : A -> bool) l : (forall x, In x l -> f x = false) -> count f l = 0%nat.
Proof. induction l as [|a l IH]; cbn; intro H; [reflexivity|]. rewrite (H a) by auto. rewrite IH; auto. Qed.
Lemma count_zero_inv {A} (f : A -> bool) l x : count f l = 0%nat -> In x l -> f x = false.
Proof. induction l as [|a l IH]; cbn; [tauto|]. intros H [-> | I]; [destruct (f x); [lia|auto]|apply IH; [lia|auto]]. Qed.
Lemma count_pos {A} (f : A -> bool) l : (count f l > 0)%nat -> exists x, In x l /\ f x = true.
Proof.
  induction l as [|a l IH]; cbn; [lia|]. destruct (f a) eqn:E; intro H.
  - exists a; auto.
  - destruct IH as [x [I J]]; [lia|]. exists x; auto.
Qed.
Lemma inputs_app h1 h2 : inputs (h1 ++ h2) = inputs h1 ++ inputs h2.
Proof. apply map_app. Qed.
Lemma effects_app h1 h2 : effects (h1 ++ h2) = effects h1 ++ effects h2.
Proof. apply flat_map_app. Qed.
Lemma inputs_snoc h i ev : inputs (h ++ [(i, ev)]) = inputs h ++ [i].
Proof. now rewrite inputs_app. Qed.
Lemma effects_snoc h i ev : effects (h ++ [(i, ev)]) = effects h ++ ev.
Proof. rewrite effects_app; unfold effects at 2; cbn. now rewrite app_nil_r. Qed.

(* what holds of a result that is a state *)
Definition sat (r : result) (P : state -> list effect -> Prop) : Prop := match r with Done s ev => P s ev | _ => True end.
Lemma sat_bind r f P Q :
  sat r Q -> (forall s ev, Q s ev -> sat (f s) (fun s' ev' => P s' (ev ++ ev'))) -> sat (bind r f) P.
Proof. intros H1 H2. destruct r as [s ev| |]; cbn; auto. specialize (H2 _ _ H1). destruct (f s); cbn in *; auto. Qed.
Lemma sat_weaken r (P Q : state -> list effect -> Prop) : sat r P -> (forall s ev, P s ev -> Q s ev) -> sat r Q.
Proof. destruct r; cbn; auto. Qed.
Lemma sat_done r P s ev : r = Done s ev -> sat r P -> P s ev.
Proof. intros -> H; exact H. Qed.

(* ---- a relation that is kept by whatever a step is made of ---- *)
Lemma by_sock_some f s n : by_sock f s = Some n -> In n (s_conns s) /\ c_sock n = f.
Proof. unfold by_sock; intro H. apply find_some in H as [I E]. split; auto. now apply Z.eqb_eq. Qed.
Lemma by_sock_none f s : by_sock f s = None -> forall n, In n (s_conns s) -> c_sock n <> f.
Proof. unfold by_sock; intros H n I E. apply (find_none _ _ H) in I. apply Z.eqb_neq in I. auto. Qed.
Lemma by_ipc_some c s n : by_ipc c s = Some n -> In n (s_conns s) /\ c_ipc n = c.
Proof. unfold by_ipc; intro H. apply find_some in H as [I E]. split; auto. now apply Z.eqb_eq. Qed.
Lemma by_ipc_in c s : In c (map c_ipc (s_conns s)) -> exists n, by_ipc c s = Some n.
Proof.
  intro H. destruct (by_ipc c s) as [n|] eqn:E; [eauto|]. exfalso. apply in_map_iff in H as [n [<- I]].
  unfold by_ipc in E. apply (find_none _ _ E) in I. rewrite Z.eqb_refl in I. discriminate.
Qed.
Lemma by_sock_in s n : NoDup (map c_sock (s_conns s)) -> In n (s_conns s) -> by_sock (c_sock n) s = Some n.
Proof.
  unfold by_sock. induction (s_conns s) as [|a l IH]; cbn; [tauto|]. intros N I. inversion N as [|? ? N1 N2]; subst.
  destruct I as [-> | I]; [now rewrite Z.eqb_refl|]. destruct (Z.eqb_spec (c_sock a) (c_sock n)) as [E|]; auto.
  exfalso. apply N1. rewrite E. now apply in_map.
Qed.

(* ---- counting ---- *)
Definition waits (p : ipc) (n : kind) (k : corr) (t : task) : bool := is_request p n k (k_request t).
Definition waiting (p : ipc) (n : kind) (k : corr) (s : state) : nat := count (waits p n k) (s_tasks s).
Definition balance (s s' : state) (ev : list effect) : Prop :=
  forall p n k, n <> Connect -> waiting p n k s = (waiting p n k s' + count (answers p n k) ev)%nat.
Lemma balance_refl s ev : (forall p n k, n <> Connect -> count (answers p n k) ev = 0%nat) -> balance s s ev.
Proof. intros H p n k N. rewrite (H p n k N). lia. Qed.
Lemma balance_trans s s1 s2 e1 e2 : balance s s1 e1 -> balance s1 s2 e2 -> balance s s2 (e1 ++ e2).
Proof. intros H1 H2 p n k N. rewrite count_app. specialize (H1 p n k N). specialize (H2 p n k N). lia. Qed.

Lemma kind_eqb_eq a b : kind_eqb a b = true <-> a = b.
Proof. destruct a, b; cbn; split; intro H; try reflexivity; try discriminate. Qed.
Lemma kind_eqb_refl a : kind_eqb a a = true.
Proof. destruct a; reflexivity. Qed.
Lemma is_request_true p n k q : is_request p n k q = true <-> q_from q = p /\ q_kind q = n /\ q_corr q = k.
Proof.
  unfold is_request. rewrite !andb_true_iff, !Z.eqb_eq, kind_eqb_eq. tauto.
Qed.

Lemma failed_count t p n k : n <> Connect -> count (answers p n k) (failed t) = (if waits p n k t then 1 else 0)%nat.
Proof.
  intro N. unfold failed, waits, is_request. destruct t as [f q]. cbn.
  destruct (q_kind q) eqn:E; cbn; destruct n; cbn; try congruence;
    destruct (q_from q =? p); cbn; try destruct (q_corr q =? k); cbn; reflexivity.
Qed.
Lemma lost_balance f s : sat (lost f s) (balance s).
Proof.
  unfold lost. destruct (by_sock f s) as [c|] eqn:B; cbn; auto. intros p n k N.
  rewrite !count_app. unfold unadvertise. rewrite B. cbn. unfold waiting; cbn.
  induction (s_tasks s) as [|t l IH]; cbn; [reflexivity|]. destruct (k_sock t =? f) eqn:E; cbn.
  - rewrite count_app, failed_count by auto. lia.
  - lia.
Qed.
Lemma send_balance ok f m s : sat (send ok f m s) (balance s).
Proof.
  unfold send. destruct (by_sock f s) as [c|] eqn:B; [|now cbn; apply balance_refl]. destruct ok.
  - cbn. now apply balance_refl.
  - apply (sat_bind _ _ _ _ (lost_balance f s)). intros s1 ev H. cbn. apply (balance_trans _ _ _ _ _ H). now apply balance_refl.
Qed.
Lemma involve_tasks t f s : sat (involve t f s) (fun s' ev => s_tasks s' = s_tasks s /\ forall p n k, count (answers p n k) ev = 0%nat).
Proof.
  unfold involve. destruct t as [[g b]|]; cbn; auto. destruct (associate g f (s_assoc s)) as [[] l]; cbn; auto.
  destruct (by_sock f s); cbn; auto.
Qed.
Lemma involve_balance t f s : sat (involve t f s) (balance s).
Proof.
  apply (sat_weaken _ _ _ (involve_tasks t f s)). intros s' ev [H1 H2] p n k N. unfold waiting. rewrite H1, H2. lia.
Qed.
Lemma add_task_waiting p n k f q s : waiting p n k (add_task f q s) = (waiting p n k s + if is_request p n k q then 1 else 0)%nat.
Proof. unfold waiting, add_task; cbn. rewrite count_app. cbn. unfold waits at 2; cbn. lia. Qed.

Lemma without_task_count k t l p n k' :
  find (fun t => q_corr (k_request t) =? k) l = Some t ->
  count (waits p n k') l = (count (waits p n k') (without_task k l) + if waits p n k' t then 1 else 0)%nat.
Proof.
  induction l as [|a l IH]; cbn; [discriminate|]. destruct (q_corr (k_request a) =? k) eqn:E; cbn.
  - intro H; injection H as ->. lia.
  - intro H. rewrite (IH H). lia.
Qed.

Definition owes (s s' : state) (ev : list effect) (f : ipc -> kind -> corr -> nat) : Prop :=
  forall p n k, n <> Connect -> (waiting p n k s + f p n k = waiting p n k s' + count (answers p n k) ev)%nat.
Definition one (p : ipc) (n : kind) (k : corr) (q : request) : nat := if is_request p n k q then 1%nat else 0%nat.

Lemma call_owes ok n q s : q_kind q = Call -> sat (call_request ok n q s) (fun s' ev => owes s s' ev (fun p n k => one p n k q)).
Proof.
  intro K. unfold call_request. destruct (has_corr (q_corr q) (s_tasks s)).
  - cbn. intros p n0 k N. unfold one, is_request. rewrite K.
    destruct n0; cbn; destruct (q_from q =? p), (q_corr q =? k); cbn; lia.
  - destruct (c_old n).
    + apply (sat_bind _ _ _ _ (involve_balance _ _ _)). intros s1 ev H.
      apply (sat_weaken _ _ _ (send_balance _ _ _ _)). intros s2 ev2 H2 p n0 k N.
      pose proof (balance_trans _ _ _ _ _ H H2 p n0 k N) as E. rewrite add_task_waiting in E. unfold one. lia.
    + pose proof (send_balance ok (c_sock n) (WRequest false q) s) as B.
      destruct (send ok (c_sock n) (WRequest false q) s) as [s1 ev| |]; cbn; auto. destruct ok; cbn; auto.
      pose proof (involve_balance (q_trid q) (c_sock n) (add_task (c_sock n) q s1)) as B2.
      destruct (involve (q_trid q) (c_sock n) (add_task (c_sock n) q s1)) as [s2 ev2| |]; cbn in *; auto.
      intros p n0 k N. specialize (B p n0 k N). specialize (B2 p n0 k N). rewrite add_task_waiting in B2. rewrite count_app. unfold one. lia.
Qed.
Lemma queue_owes ok n q s : sat (queue_request ok n q s) (fun s' ev => owes s s' ev (fun p n k => one p n k q)).
Proof.
  unfold queue_request. apply (sat_bind _ _ _ _ (send_balance _ _ _ _)). intros s1 ev H.
  apply (sat_weaken _ _ _ (involve_balance _ _ _)). intros s2 ev2 H2 p n0 k N.
  specialize (H p n0 k N). specialize (H2 p n0 k N). rewrite add_task_waiting in H2. rewrite count_app. unfold one. lia.
Qed.
Lemma connect_owes ok n q s : sat (connect_request ok n q s) (fun s' ev => owes s s' ev (fun p n k => one p n k q)).
Proof.
  unfold connect_request. apply (sat_bind _ _ _ _ (involve_balance _ _ _)). intros s1 ev H.
  apply (sat_weaken _ _ _ (send_balance _ _ _ _)). intros s2 ev2 H2 p n0 k N.
  pose proof (balance_trans _ _ _ _ _ H H2 p n0 k N) as E. rewrite add_task_waiting in E. unfold one. lia.
Qed.
Definition nothing (p : ipc) (n : kind) (k : corr) : nat := 0%nat.
Lemma balance_owes s s' ev : balance s s' ev -> owes s s' ev nothing.
Proof. intros H p n k N. specialize (H p n k N). unfold nothing. lia. Qed.
Lemma same_tasks_owes s s' ev : s_tasks s' = s_tasks s -> (forall p n k, n <> Connect -> count (answers p n k) ev = 0%nat) -> owes s s' ev nothing.
Proof. intros E H p n k N. unfold waiting, nothing. rewrite E, (H p n k N). lia. Qed.
Lemma balance_from s0 s s' ev : s_tasks s = s_tasks s0 -> balance s s' ev -> balance s0 s' ev.
Proof. intros E H p n k N. specialize (H p n k N). unfold waiting in *. rewrite <- E. exact H. Qed.
Lemma add_dest_tasks k from f s : s_tasks (add_dest k from f s) = s_tasks s.
Proof. unfold add_dest. destruct (existsb _ _); reflexivity. Qed.
Lemma not_connect n k t p : q_kind (k_request t) = Connect -> n <> Connect -> waits p n k t = false.
Proof. intros E N. unfold waits, is_request. rewrite E. destruct n; cbn; try congruence; rewrite ?andb_false_r; auto; destruct (_ =? _); auto. Qed.

Lemma disconnect_owes ok k s : sat (disconnect_conversation ok k s) (fun s' ev => owes s s' ev nothing).
Proof.
  unfold disconnect_conversation. destruct (first_task k s) as [t|] eqn:F; [|cbn; now apply same_tasks_owes].
  destruct (q_kind (k_request t)) eqn:K; try (cbn; now apply same_tasks_owes).
  assert (D : forall s1, s_tasks s1 = s_tasks s -> forall ev, (forall p n k, n <> Connect -> count (answers p n k) ev = 0%nat) -> owes s (drop_task k s1) ev nothing).
  { intros s1 E ev H p n k' N. unfold waiting, nothing, drop_task. cbn. rewrite E, (H p n k' N).
    rewrite (without_task_count k t (s_tasks s) p n k' F), (not_connect n k' t p K N). lia. }
  destruct (by_sock (k_sock t) s) eqn:B.
  - unfold send. rewrite B. destruct ok.
    + cbn. apply D; auto.
    + destruct (bind _ _); cbn; auto.
  - cbn. apply D; auto.
Qed.

Lemma inward_owes ok n m s : sat (inward_step ok n m s)
  (fun s' ev => owes s s' ev (fun p n k => match m with InRequest q => one p n k q | _ => 0%nat end)).
Proof.
  destruct m as [q|k data|k|r k from t data|k from data|data]; cbn -[owes].
  - destruct (q_kind q) eqn:K; [now apply call_owes|apply queue_owes|apply queue_owes|apply connect_owes].
  - apply (sat_weaken _ _ _ (send_balance _ _ _ _)). intros. now apply balance_owes.
  - apply disconnect_owes.
  - apply (sat_weaken _ _ _ (send_balance _ _ _ _)). intros s' ev H. apply balance_owes. apply (balance_from _ _ _ _ (add_dest_tasks k from (c_sock n) s) H).
  - destruct (s_down s); [cbn; now apply same_tasks_owes|]. destruct (is_leaving _ _); [cbn; now apply same_tasks_owes|].
    apply (sat_weaken _ _ _ (send_balance _ _ _ _)). intros s' ev H. apply balance_owes. apply (balance_from _ _ _ _ (add_dest_tasks k from (c_sock n) s) H).
  - destruct (s_down s); [cbn; now apply same_tasks_owes|]. destruct (is_leaving _ _); [cbn; now apply same_tasks_owes|].
    apply (sat_weaken _ _ _ (send_balance _ _ _ _)). intros. now apply balance_owes.
Qed.

Lemma unadvertise_service_count f x s p n k : count (answers p n k) (unadvertise_service f x s) = 0%nat.
Proof. unfold unadvertise_service. destruct (by_sock f s); reflexivity. Qed.
Lemma unadvertise_count f s p n k : count (answers p n k) (unadvertise f s) = 0%nat.
Proof. unfold unadvertise. destruct (by_sock f s); reflexivity. Qed.
Lemma reply_owes n k code data s : sat (task_reply n k code data s) (fun s' ev => owes s s' ev nothing).
Proof.
  unfold task_reply. destruct (first_task k s) as [t|] eqn:F; [|cbn; now apply same_tasks_owes].
  destruct (kind_eqb (q_kind (k_request t)) n) eqn:K; [|cbn; now apply same_tasks_owes]. apply kind_eqb_eq in K.
  assert (C : q_corr (k_request t) = k) by (apply find_some in F as [_ F]; now apply Z.eqb_eq).
  assert (U : forall p n' k', count (answers p n' k') (if code =? TPENOENT then unadvertise_service (k_sock t) (q_name (k_request t)) s else []) = 0%nat)
    by (intros; destruct (code =? TPENOENT); [apply unadvertise_service_count|reflexivity]).
  assert (D : n <> Connect -> forall ev, (forall p n' k', count (answers p n' k') ev = if waits p n' k' t then 1%nat else 0%nat) -> owes s (drop_task k s) ev nothing).
  { intros _ ev H p n' k' N. unfold waiting, nothing, drop_task. cbn. rewrite H, (without_task_count k t (s_tasks s) p n' k' F). lia. }
  destruct n; cbn -[owes].
  - apply D; [discriminate|]. intros p n' k'. cbn. rewrite count_app, U. cbn. unfold waits, is_request. rewrite K, C.
    destruct n'; cbn; destruct (_ =? p), (k =? k'); reflexivity.
  - apply D; [discriminate|]. intros p n' k'. cbn. unfold waits, is_request. rewrite K, C.
    destruct n'; cbn; destruct (_ =? p), (k =? k'); reflexivity.
  - apply D; [discriminate|]. intros p n' k'. cbn. unfold waits, is_request. rewrite K, C.
    destruct n'; cbn; destruct (_ =? p), (k =? k'); reflexivity.
  - apply same_tasks_owes; auto. intros p n' k' N. rewrite count_app, U. cbn. destruct n'; try congruence; cbn; rewrite andb_false_r; reflexivity.
Qed.
Lemma task_send_owes k x data s : sat (task_send k x data s) (fun s' ev => owes s s' ev nothing).
Proof.
  unfold task_send. destruct (first_task k s) as [t|] eqn:F; [|cbn; now apply same_tasks_owes].
  destruct (q_kind (k_request t)) eqn:K; try (cbn; now apply same_tasks_owes). cbn. destruct x; [|now apply same_tasks_owes].
  intros p n k' N. unfold waiting, nothing, drop_task. cbn. rewrite (without_task_count k t (s_tasks s) p n k' F), (not_connect n k' t p K N). lia.
Qed.
Lemma take_dest_tasks k s d s' : take_dest k s = (d, s') -> s_tasks s' = s_tasks s.
Proof. unfold take_dest. intro H; injection H as _ <-. reflexivity. Qed.
Lemma leave_balance x f s : sat (leave x f s) (balance s).
Proof. cbn. intros p n k N. unfold waiting; cbn. rewrite unadvertise_count. lia. Qed.
Lemma outward_owes ok n m s : sat (outward_step ok n m s) (fun s' ev => owes s s' ev nothing).
Proof.
  destruct m as [nk k code data|k x data|r k data|k ss qs data|k]; cbn -[owes leave take_dest].
  - apply reply_owes.
  - apply task_send_owes.
  - destruct (take_dest k s) as [d s'] eqn:E. cbn. apply same_tasks_owes; [apply (take_dest_tasks _ _ _ _ E)|]. destruct d; reflexivity.
  - destruct (take_dest k s) as [d s'] eqn:E. cbn -[owes]. apply same_tasks_owes; [apply (take_dest_tasks _ _ _ _ E)|].
    intros p n' k' _. rewrite !count_app. destruct ss, qs, d; reflexivity.
  - apply (sat_bind _ _ _ _ (leave_balance true (c_sock n) s)). intros s1 ev H.
    apply (sat_weaken _ _ _ (send_balance _ _ _ _)). intros s2 ev2 H2. apply balance_owes. apply (balance_trans _ _ _ _ _ H H2).
Qed.
Lemma close_all_balance l s : sat (close_all l s) (balance s).
Proof.
  revert s. induction l as [|[f x] l IH]; intro s; cbn; [now apply balance_refl|].
  apply (sat_bind _ _ _ (balance s)).
  - apply (sat_bind _ _ _ _ (lost_balance f s)). intros s1 ev H. cbn. apply (balance_trans _ _ _ _ _ H). apply balance_refl. destruct x; reflexivity.
  - intros s1 ev H. apply (sat_weaken _ _ _ (IH s1)). intros s2 ev2 H2. apply (balance_trans _ _ _ _ _ H H2).
Qed.
Lemma leave_all_balance l s : sat (leave_all l s) (balance s).
Proof.
  revert s. induction l as [|n l IH]; intro s; cbn -[leave]; [now apply balance_refl|].
  apply (sat_bind _ _ _ _ (leave_balance true (c_sock n) s)).
  intros s1 ev H. apply (sat_weaken _ _ _ (IH s1)). intros s2 ev2 H2. apply (balance_trans _ _ _ _ _ H H2).
Qed.
Lemma step_owes i s : (forall c ok m, i = Inward c ok m -> In c (map c_ipc (s_conns s))) ->
  sat (step i s) (fun s' ev => owes s s' ev (fun p n k => if asks p n k i then 1%nat else 0%nat)).
Proof.
  intro P. destruct i as [f c old|c ok m|c ok m|c|g|c| |]; cbn -[owes leave shutdown idle].
  - now apply same_tasks_owes.
  - destruct (by_ipc_in c s (P _ _ _ eq_refl)) as [n E]. rewrite E.
    apply (sat_weaken _ _ _ (inward_owes ok n m s)). intros s' ev H p n' k N. specialize (H p n' k N). destruct m; exact H.
  - destruct (by_ipc c s); [apply outward_owes|cbn; now apply same_tasks_owes].
  - destruct (by_ipc c s) as [n|]; [|cbn; now apply same_tasks_owes].
    apply (sat_bind _ _ _ _ (lost_balance _ s)). intros s1 ev H. cbn. apply balance_owes, (balance_trans _ _ _ _ _ H). now apply balance_refl.
  - now apply same_tasks_owes.
  - destruct (by_ipc c s) as [n|]; [|cbn; now apply same_tasks_owes]. apply (sat_weaken _ _ _ (leave_balance false (c_sock n) s)). intros. now apply balance_owes.
  - unfold shutdown. apply (sat_weaken _ _ _ (leave_all_balance _ _)). intros s' ev H. apply balance_owes. exact H.
  - unfold idle. apply (sat_weaken _ _ _ (close_all_balance _ _)). intros s' ev H. now apply balance_owes.
Qed.

Lemma accounted s h : reach s h -> forall p n k, n <> Connect -> asked p n k h = (answered p n k h + waiting p n k s)%nat.
Proof.
  induction 1 as [|s h i s' ev R IH P E]; intros p n k N; [reflexivity|].
  unfold asked, answered in *. rewrite inputs_snoc, effects_snoc, !count_app. cbn [count].
  pose proof (sat_done _ _ _ _ E (step_owes i s (fun c ok m X => ltac:(subst i; exact P))) p n k N) as B. cbn in B.
  rewrite (IH p n k N). lia.
Qed.

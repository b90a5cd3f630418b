(* Nobody is left without an answer when connections are lost, and where it goes wrong. *)
From Coq Require Import ZArith List Bool Lia.
From Verif Require Import GwoModel GwoSpec GwoProofs GwoInv GwoKeep GwoTight GwoReply GwoWire GwoTold.
Import ListNotations.
Local Open Scope Z_scope.

Lemma answered_once h p n k : happens h -> n <> Connect -> (answered p n k h <= asked p n k h)%nat.
Proof. intros [s R] N. rewrite (accounted s h R p n k N). lia. Qed.
Lemma first_task_in k l t : In t l -> q_corr (k_request t) = k -> exists t', find (fun t => q_corr (k_request t) =? k) l = Some t' /\ In t' l /\ q_corr (k_request t') = k.
Proof.
  intros I E. destruct (find (fun t => q_corr (k_request t) =? k) l) as [t'|] eqn:F.
  - exists t'. split; auto. apply find_some in F as [F1 F2]. split; auto. now apply Z.eqb_eq.
  - exfalso. pose proof (find_none _ _ F t I) as H. cbn in H. apply Z.eqb_neq in H. contradiction.
Qed.
(* the only one that has used the correlation gets the reply *)
Lemma passed_on h c ok n k code data ev p : happens (h ++ [(Outward c ok (XReply n k code data), ev)]) -> n <> Connect ->
  (forall c' ok' q, In (Inward c' ok' (InRequest q)) (inputs h) -> q_corr q = k -> q_from q = p /\ q_kind q = n) ->
  (answered p n k h < asked p n k h)%nat -> In (ToProcess p (Reply n k code data)) ev /\ count (answers p n k) ev = 1%nat.
Proof.
  intros H N U L. destruct (happens_snoc _ _ _ H) as [s [s' [R [P [E R']]]]]. rewrite (accounted s h R p n k N) in L.
  destruct (count_pos (waits p n k) (s_tasks s)) as [t [I W]]; [unfold waiting in L; lia|]. apply is_request_true in W as [_ [_ W]].
  destruct (first_task_in k (s_tasks s) t I W) as [t' [F [I' C]]]. destruct (task_asked s h R t' I') as [c0 [ok0 A]]. destruct (U _ _ _ A C) as [U1 U2].
  cbn in P. destruct (by_ipc_in c s P) as [m B]. cbn -[outward_step] in E. rewrite B in E. cbn in E. unfold task_reply, first_task in E. rewrite F, U1, U2, kind_eqb_refl in E.
  assert (US : forall f x, count (answers p n k) (if code =? TPENOENT then unadvertise_service f x s else []) = 0%nat) by (intros f x; destruct (code =? TPENOENT); [apply unadvertise_service_count|reflexivity]).
  destruct n; try contradiction; unfold emit in E; injection E as _ <-; (split; [cbn; auto|]); cbn -[TPENOENT]; rewrite ?count_app, ?US; cbn; now rewrite !Z.eqb_refl.
Qed.
(* a request that is given to a connection that works is sent as it is, once; or is a loop *)
Lemma given h c q ev : happens (h ++ [(Inward c true (InRequest q), ev)]) ->
  (exists v, filter (fun e => match e with ToRemote _ _ => true | _ => false end) ev = [ToRemote c (WRequest v q)]) \/
  (q_kind q = Call /\ In (ToProcess (q_from q) (Reply Call (q_corr q) TPESYSTEM 0)) ev /\ exists c' ok' q', In (Inward c' ok' (InRequest q')) (inputs h) /\ q_corr q' = q_corr q).
Proof.
  intros H. destruct (happens_snoc _ _ _ H) as [s [s' [R [P [E R']]]]]. pose proof (reach_inv s h R) as [W _ _ _].
  cbn in P. destruct (by_ipc_in c s P) as [n B]. cbn -[inward_step] in E. rewrite B in E. apply by_ipc_some in B as [B1 B2].
  destruct (request_sent n q s B1 (wf_sock _ W)) as [[K [HC L]]|T].
  - right. rewrite L in E. injection E as _ <-. split; auto. split; [cbn; auto|]. apply has_corr_in in HC as [t [I C]]. destruct (task_asked s h R t I) as [c0 [ok0 A]]. eauto.
  - left. pose proof (sat_done _ _ _ _ E T) as [T1 [v T2]]. exists v. rewrite B2 in T2. clear - T1 T2.
    induction ev as [|e ev IH]; [destruct T2|]. cbn in *. destruct T2 as [-> |T2].
    + f_equal. assert (count (fun e => match e with ToRemote _ _ => true | _ => false end) ev = 0%nat) as X by lia. clear - X.
      induction ev as [|e ev IH]; cbn in *; auto. destruct e; cbn in *; auto; discriminate.
    + assert (X : (count (fun e => match e with ToRemote _ _ => true | _ => false end) ev > 0)%nat).
      { destruct (count (fun e => match e with ToRemote _ _ => true | _ => false end) ev) eqn:Z0; [|lia]. pose proof (count_zero_inv _ _ _ Z0 T2). discriminate. }
      destruct e; cbn in *; try (apply IH; auto); lia.
Qed.

(* ---- all of the connections that it has been asked at are gone: it has been answered ---- *)
Lemma lost_answered h p n k : happens h -> orderly h -> n <> Connect -> (forall c, asked_at c p n k h -> gone c h) -> answered p n k h = asked p n k h.
Proof.
  intros [s R] O N G. pose proof (accounted s h R p n k N) as A. destruct (Nat.eq_dec (answered p n k h) (asked p n k h)) as [|NE]; auto.
  destruct (unanswered s h p n k R O N) as [c [[_ C1] C2]]; [lia|]. exfalso. apply C1, G, C2.
Qed.
Lemma sat_down r b : sat r (fun s' _ => s_down s' = b) -> sat r (fun s' _ => s_down s' = b).
Proof. auto. Qed.
Lemma lost_down f s : sat (lost f s) (fun s' _ => s_down s' = s_down s).
Proof. unfold lost. destruct (by_sock f s); cbn; auto. Qed.
Lemma send_down ok f m s : sat (send ok f m s) (fun s' _ => s_down s' = s_down s).
Proof. unfold send. destruct (by_sock f s); cbn -[sat]; [|reflexivity]. destruct ok; [reflexivity|]. apply (sat_bind _ _ _ _ (lost_down f s)). intros s1 e H. exact H. Qed.
Lemma involve_down t f s : sat (involve t f s) (fun s' _ => s_down s' = s_down s).
Proof. unfold involve. destruct t as [[g b]|]; [|reflexivity]. destruct (associate _ _ _) as [first l]. destruct first; [destruct (by_sock f s)|]; reflexivity. Qed.
Lemma leave_all_down l s : sat (leave_all l s) (fun s' _ => s_down s' = s_down s).
Proof. revert s. induction l as [|n l IH]; intro s; [reflexivity|]. cbn -[sat leave]. apply (sat_bind _ _ _ (fun s' _ => s_down s' = s_down s)); [reflexivity|]. intros s1 e <-. apply IH. Qed.
Lemma close_all_down l s : sat (close_all l s) (fun s' _ => s_down s' = s_down s).
Proof.
  revert s. induction l as [|[f x] l IH]; intro s; [reflexivity|]. cbn -[sat lost]. apply (sat_bind _ _ _ (fun s' _ => s_down s' = s_down s)); [|intros s1 e <-; apply IH].
  apply (sat_bind _ _ _ _ (lost_down f s)). intros s1 e H. exact H.
Qed.
Lemma add_dest_down k p f s : s_down (add_dest k p f s) = s_down s.
Proof. unfold add_dest. destruct (existsb _ _); reflexivity. Qed.
Lemma inward_down ok n m s : sat (inward_step ok n m s) (fun s' _ => s_down s' = s_down s).
Proof.
  assert (SI : forall v q, sat (bind (involve (q_trid q) (c_sock n) (add_task (c_sock n) q s)) (fun s => send ok (c_sock n) (WRequest v q) s)) (fun s' _ => s_down s' = s_down s)).
  { intros v q. apply (sat_bind _ _ _ _ (involve_down _ _ _)). intros s1 e H. cbn in H. rewrite <- H. apply send_down. }
  assert (IS : forall q, sat (bind (send ok (c_sock n) (WRequest false q) s) (fun s => involve (q_trid q) (c_sock n) (add_task (c_sock n) q s))) (fun s' _ => s_down s' = s_down s)).
  { intros q. apply (sat_bind _ _ _ _ (send_down _ _ _ _)). intros s1 e H. rewrite <- H. apply (sat_weaken _ _ _ (involve_down _ _ _)). cbn. auto. }
  destruct m as [q|k data|k|r k p t data|k p data|data]; cbn -[sat].
  - destruct (q_kind q); unfold call_request, queue_request, connect_request; auto.
    destruct (has_corr _ _); [reflexivity|]. destruct (c_old n); auto. specialize (IS q). destruct (send ok (c_sock n) (WRequest false q) s); auto. destruct ok; auto. exact I.
  - apply send_down.
  - unfold disconnect_conversation. destruct (first_task k s) as [t|]; [|reflexivity]. destruct (q_kind (k_request t)); try reflexivity. destruct (by_sock (k_sock t) s); [|reflexivity].
    pose proof (send_down ok (k_sock t) (WDisconnect k) s) as H. destruct (send ok (k_sock t) (WDisconnect k) s); auto. destruct ok; exact H || exact I.
  - apply (sat_weaken _ _ _ (send_down _ _ _ _)). intros s1 _. now rewrite add_dest_down.
  - destruct (s_down s) eqn:D; [exact D|]. destruct (is_leaving _ _); [exact D|]. apply (sat_weaken _ _ _ (send_down _ _ _ _)). intros s1 _. now rewrite add_dest_down, D.
  - destruct (s_down s) eqn:D; [exact D|]. destruct (is_leaving _ _); [exact D|]. rewrite <- D. apply send_down.
Qed.
Lemma outward_down ok n m s : sat (outward_step ok n m s) (fun s' _ => s_down s' = s_down s).
Proof.
  destruct m as [nk k code data|k x data|r k data|k ss qs data|k]; cbn -[sat leave take_dest].
  - unfold task_reply. destruct (first_task k s) as [t|]; [|reflexivity]. destruct (kind_eqb _ nk); [|reflexivity]. destruct nk; reflexivity.
  - unfold task_send. destruct (first_task k s) as [t|]; [|reflexivity]. destruct (q_kind _); try reflexivity. destruct x; reflexivity.
  - reflexivity.
  - reflexivity.
  - apply (sat_bind _ _ _ (fun s' _ => s_down s' = s_down s)); [reflexivity|]. intros s1 e <-. apply send_down.
Qed.
Lemma step_down i s : sat (step i s) (fun s' _ => s_down s' = s_down s || match i with Shutdown => true | _ => false end).
Proof.
  destruct i as [f c old|c ok m|c ok m|c|g|c| |]; cbn -[sat leave shutdown idle inward_step outward_step].
  - cbn. now rewrite orb_false_r.
  - rewrite orb_false_r. destruct (by_ipc c s); [apply inward_down|reflexivity].
  - rewrite orb_false_r. destruct (by_ipc c s); [apply outward_down|reflexivity].
  - rewrite orb_false_r. destruct (by_ipc c s); [|reflexivity]. apply (sat_bind _ _ _ _ (lost_down _ s)). intros s1 e H. exact H.
  - cbn. now rewrite orb_false_r.
  - rewrite orb_false_r. destruct (by_ipc c s); reflexivity.
  - rewrite orb_true_r. unfold shutdown. apply (sat_weaken _ _ _ (leave_all_down _ _)). cbn. auto.
  - rewrite orb_false_r. apply close_all_down.
Qed.
Lemma down_iff s h : reach s h -> (s_down s = true <-> In Shutdown (inputs h)).
Proof.
  induction 1 as [|s h i s' ev R IH P E]; [cbn; split; [discriminate|tauto]|]. pose proof (sat_done _ _ _ _ E (step_down i s)) as D. cbn in D. rewrite D, inputs_snoc, in_app_iff, <- IH, orb_true_iff. cbn.
  destruct i; intuition discriminate.
Qed.
(* when it has been told to shut down and all the connections are gone, it stops *)
Lemma stops s h : reach s h -> orderly h -> In Shutdown (inputs h) -> (forall c, connected c h -> gone c h) -> done s = true.
Proof.
  intros R O D G. destruct (reach_tight s h R O) as [T _]. pose proof (reach_inv s h R) as [W _ OP _]. apply (down_iff s h R) in D.
  assert (NL : forall f, ~ live f s). { intros f [n [I _]]. destruct (proj1 (OP (c_ipc n)) (in_map c_ipc _ _ I)) as [C N]. apply N, G, C. }
  unfold done. rewrite D. destruct (s_tasks s) as [|t l] eqn:E1; [|exfalso; apply (NL (k_sock t)), (ti_tasks _ T); rewrite E1; cbn; auto].
  destruct (s_assoc s) as [|[g fs] l] eqn:E2.
  - destruct (s_dests s) as [|d l] eqn:E3; [reflexivity|]. exfalso. apply (NL (d_sock d)), (wf_dests _ W). rewrite E3. cbn; auto.
  - exfalso. destruct (wf_fds _ W g fs) as [_ F]; [rewrite E2; cbn; auto|]. destruct fs as [|f fs]; [contradiction|]. apply (NL f), (ti_assoc _ T g (f :: fs) f); [rewrite E2|]; cbn; auto.
Qed.
(* and not before: somebody waits or a transaction is in progress *)
Lemma stops_not s h p n k : reach s h -> n <> Connect -> done s = true -> In Shutdown (inputs h) /\ answered p n k h = asked p n k h.
Proof.
  intros R N D. unfold done in D. apply andb_true_iff in D as [D _]. apply andb_true_iff in D as [D _]. apply andb_true_iff in D as [D1 D2]. split; [now apply (down_iff s h R)|].
  rewrite (accounted s h R p n k N). unfold waiting. destruct (s_tasks s); [cbn; lia|discriminate].
Qed.

(* ---- undefined behaviour ---- *)
Definition defined (r : result) : Prop := match r with Undefined _ => False | _ => True end.
Lemma bind_defined r f : defined r -> (forall s, defined (f s)) -> defined (bind r f).
Proof. destruct r; cbn; auto. intros _ H. specialize (H s). destruct (f s); auto. Qed.
Lemma lost_defined f s : defined (lost f s).
Proof. unfold lost. destruct (by_sock f s); exact I. Qed.
Lemma send_defined ok f m s : defined (send ok f m s).
Proof. unfold send. destruct (by_sock f s); [|exact I]. destruct ok; [exact I|]. apply bind_defined; [apply lost_defined|intro; exact I]. Qed.
Lemma involve_defined t f s : defined (involve t f s).
Proof. unfold involve. destruct t as [[g b]|]; [|exact I]. destruct (associate _ _ _) as [first l]. destruct first; [destruct (by_sock f s)|]; exact I. Qed.
Lemma leave_all_defined l s : defined (leave_all l s).
Proof. revert s. induction l as [|n l IH]; intro s; [exact I|]. cbn -[leave]. apply bind_defined; [exact I|exact IH]. Qed.
Lemma close_all_defined l s : defined (close_all l s).
Proof. revert s. induction l as [|[f x] l IH]; intro s; [exact I|]. cbn -[lost]. apply bind_defined; [apply bind_defined; [apply lost_defined|intro; exact I]|exact IH]. Qed.
Lemma undefined_only i s ev : step i s = Undefined ev ->
  exists c, (exists q, i = Inward c false (InRequest q) /\ q_kind q = Call) \/ (exists k, i = Inward c false (InDisconnect k)).
Proof.
  intro E. assert (C : ~ defined (step i s)) by (rewrite E; auto). clear E.
  destruct i as [f c old|c ok m|c ok m|c|g|c| |]; cbn -[leave shutdown idle inward_step outward_step] in C.
  - destruct C; exact I.
  - destruct (by_ipc c s) as [n|]; [|destruct C; exact I]. destruct m as [q|k data|k|r k p t data|k p data|data]; cbn in C.
    + destruct (q_kind q) eqn:K.
      * destruct ok; [exfalso; apply C|exists c; left; exists q; auto]. unfold call_request. destruct (has_corr _ _); [exact I|]. destruct (c_old n).
        -- apply bind_defined; [apply involve_defined|intro; apply send_defined].
        -- pose proof (send_defined true (c_sock n) (WRequest false q) s) as D. destruct (send true (c_sock n) (WRequest false q) s); auto.
           apply bind_defined; [exact I|intro; apply involve_defined].
      * exfalso; apply C. apply bind_defined; [apply send_defined|intro; apply involve_defined].
      * exfalso; apply C. apply bind_defined; [apply send_defined|intro; apply involve_defined].
      * exfalso; apply C. apply bind_defined; [apply involve_defined|intro; apply send_defined].
    + exfalso; apply C, send_defined.
    + destruct ok; [exfalso; apply C|exists c; right; exists k; auto]. unfold disconnect_conversation. destruct (first_task k s) as [t|]; [|exact I]. destruct (q_kind (k_request t)); try exact I.
      destruct (by_sock (k_sock t) s); [|exact I]. pose proof (send_defined true (k_sock t) (WDisconnect k) s) as D. destruct (send true (k_sock t) (WDisconnect k) s); auto.
    + exfalso; apply C, send_defined.
    + exfalso; apply C. destruct (s_down s); [exact I|]. destruct (is_leaving _ _); [exact I|apply send_defined].
    + exfalso; apply C. destruct (s_down s); [exact I|]. destruct (is_leaving _ _); [exact I|apply send_defined].
  - exfalso; apply C. destruct (by_ipc c s) as [n|]; [|exact I]. destruct m as [nk k code data|k x data|r k data|k ss qs data|k]; cbn -[leave].
    + unfold task_reply. destruct (first_task k s) as [t|]; [|exact I]. destruct (kind_eqb _ nk); [|exact I]. destruct nk; exact I.
    + unfold task_send. destruct (first_task k s) as [t|]; [|exact I]. destruct (q_kind _); exact I.
    + exact I.
    + exact I.
    + apply bind_defined; [exact I|intro; apply send_defined].
  - exfalso; apply C. destruct (by_ipc c s); [|exact I]. apply bind_defined; [apply lost_defined|intro; exact I].
  - destruct C; exact I.
  - exfalso; apply C. destruct (by_ipc c s); exact I.
  - exfalso; apply C, leave_all_defined.
  - exfalso; apply C, close_all_defined.
Qed.

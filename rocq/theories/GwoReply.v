(* What is replied, and what is sent to the remote. *)
From Coq Require Import ZArith List Bool Lia.
From Verif Require Import GwoModel GwoSpec GwoProofs GwoInv GwoKeep GwoTight.
Import ListNotations.
Local Open Scope Z_scope.

(* ---- what is left is waited for, at a connection that is open ---- *)
Lemma unanswered s h p n k : reach s h -> orderly h -> n <> Connect -> (answered p n k h < asked p n k h)%nat ->
  exists c, open c h /\ asked_at c p n k h.
Proof.
  intros R O N L. rewrite (accounted s h R p n k N) in L. destruct (count_pos (waits p n k) (s_tasks s)) as [t [I E]]; [unfold waiting in L; lia|].
  destruct (reach_tight s h R O) as [T G]. destruct (G t I) as [m [ok [J1 [J2 J3]]]]. exists (c_ipc m). split.
  - apply (inv_open s h (reach_inv s h R)). now apply in_map.
  - exists ok, (k_request t). split; auto.
Qed.

(* ---- replies due to a lost connection ---- *)
Definition due (X : task -> Prop) (s : state) (ev : list effect) : Prop :=
  forall p n k code data, In (ToProcess p (Reply n k code data)) ev ->
  n <> Connect /\ code = lost_code n /\ data = 0 /\
  exists t m, (In t (s_tasks s) \/ X t) /\ is_request p n k (k_request t) = true /\
              In m (s_conns s) /\ c_sock m = k_sock t /\ In (Destroyed (c_ipc m)) ev.
Definition sub (s s' : state) : Prop := forall n, In n (s_conns s') -> In n (s_conns s).
Definition dues (X : task -> Prop) (s s' : state) (ev : list effect) : Prop := due X s ev /\ from s X s' /\ sub s s'.
Lemma dues_trans X s s1 s2 e1 e2 : dues X s s1 e1 -> dues X s1 s2 e2 -> dues X s s2 (e1 ++ e2).
Proof.
  intros [D1 [F1 S1]] [D2 [F2 S2]]. split; [|split; [apply (from_trans _ _ _ _ F1 F2)|intros n I; auto]].
  intros p n k code data I. apply in_app_or in I as [I|I].
  - destruct (D1 _ _ _ _ _ I) as [A [B [C [t [m [E1 [E2 [E3 [E4 E5]]]]]]]]].
    exact (conj A (conj B (conj C (ex_intro _ t (ex_intro _ m (conj E1 (conj E2 (conj E3 (conj E4 (in_or_app _ _ _ (or_introl E5))))))))))).  
  - destruct (D2 _ _ _ _ _ I) as [A [B [C [t [m [E1 [E2 [E3 [E4 E5]]]]]]]]].
    assert (E1' : In t (s_tasks s) \/ X t) by (destruct E1 as [E1|E1]; [apply (F1 t E1)|auto]).
    exact (conj A (conj B (conj C (ex_intro _ t (ex_intro _ m (conj E1' (conj E2 (conj (S1 m E3) (conj E4 (in_or_app _ _ _ (or_intror E5))))))))))).  
Qed.
Lemma dues_bind X s r f : sat r (dues X s) -> (forall s1, sat (f s1) (dues X s1)) -> sat (bind r f) (dues X s).
Proof. intros A B. apply (sat_bind _ _ _ _ A). intros s1 ev D. apply (sat_weaken _ _ _ (B s1)). intros s2 ev2 D2. apply (dues_trans _ _ _ _ _ _ D D2). Qed.
Lemma dues_none X s s' ev : s_conns s' = s_conns s -> from s X s' -> (forall p m, ~ In (ToProcess p m) ev) -> dues X s s' ev.
Proof. intros E F H. split; [intros p n k code data I; exfalso; eapply H; eauto|split; auto]. intros n I. now rewrite E in I. Qed.
Lemma lost_dues X f s : sat (lost f s) (dues X s).
Proof.
  pose proof (lost_from f s X) as F. unfold lost in *. destruct (by_sock f s) as [m|] eqn:B; cbn in *; auto. split; [|split; auto].
  - intros p n k code data I. unfold unadvertise in *. rewrite B in *. cbn in I. destruct I as [I|[I|[I|I]]]; try discriminate.
    apply in_flat_map in I as [t [I1 I2]]. destruct (Z.eqb_spec (k_sock t) f) as [E|]; [|contradiction].
    apply by_sock_some in B as [B1 B2].
    assert (X0 : n <> Connect /\ code = lost_code n /\ data = 0 /\ is_request p n k (k_request t) = true).
    { unfold failed in I2. destruct (q_kind (k_request t)) eqn:K; cbn in I2; [destruct I2 as [I2|[I2|[]]]; [|discriminate]|destruct I2 as [I2|[]]|destruct I2 as [I2|[]]|contradiction];
        injection I2 as <- <- <- <- <-; repeat split; try discriminate; apply is_request_true; auto. }
    destruct X0 as [X1 [X2 [X3 X4]]]. split; [exact X1|]. split; [exact X2|]. split; [exact X3|]. exists t, m. split; [auto|]. split; [auto|]. split; [auto|]. split; [congruence|]. cbn. auto.
  - intros n I. cbn in I. now apply filter_In in I as [I _].
Qed.
Lemma send_dues X ok f m s : sat (send ok f m s) (dues X s).
Proof.
  unfold send. destruct (by_sock f s); [|apply dues_none; auto; now apply from_same]. destruct ok.
  - apply dues_none; [reflexivity|now apply from_same|]. intros p x [H|[]]; discriminate.
  - apply dues_bind; [apply lost_dues|]. intro s1. apply dues_none; [reflexivity|now apply from_same|]. intros p x [H|[]]; discriminate.
Qed.
Lemma involve_dues X t f s : sat (involve t f s) (dues X s).
Proof.
  unfold involve. destruct t as [[g b]|]; [|apply dues_none; auto; now apply from_same].
  destruct (associate g f (s_assoc s)) as [first l]. destruct first; [destruct (by_sock f s)|]; apply dues_none; try reflexivity; try (now apply from_same); cbn; intuition discriminate.
Qed.
Lemma dues_add n q s s' ev : dues (is_task n q) (add_task (c_sock n) q s) s' ev -> dues (is_task n q) s s' ev.
Proof.
  intros [D [F S1]]. split; [|split; auto].
  - intros p n0 k code data I. destruct (D _ _ _ _ _ I) as [A [B [C [t [m [E1 E2]]]]]]. split; [exact A|]. split; [exact B|]. split; [exact C|]. exists t, m. split; [|exact E2].
    destruct E1 as [E1|E1]; auto. apply (add_task_from n q s t E1).
  - apply (from_trans _ _ _ _ (add_task_from n q s) F).
Qed.
(* the reply at once, to a call that is already in flight *)
Definition looped (s : state) (q : request) (r : result) : Prop :=
  q_kind q = Call /\ has_corr (q_corr q) (s_tasks s) = true /\
  r = Done s [ToProcess (q_from q) (Reply Call (q_corr q) TPESYSTEM 0); Metric (q_corr q) (q_name q) TPESYSTEM].
Lemma request_dues ok n q s : q_kind q = q_kind q -> looped s q (inward_step ok n (InRequest q) s) \/ sat (inward_step ok n (InRequest q) s) (dues (is_task n q) s).
Proof.
  intros _. cbn -[sat]. destruct (q_kind q) eqn:K.
  - unfold call_request. destruct (has_corr _ _) eqn:H; [left; repeat split; auto|]. right. destruct (c_old n).
    + pose proof (dues_bind (is_task n q) (add_task (c_sock n) q s) _ (fun s => send ok (c_sock n) (WRequest true q) s) (involve_dues (is_task n q) (q_trid q) (c_sock n) (add_task (c_sock n) q s)) ltac:(intro; apply send_dues)) as D.
      apply (sat_weaken _ _ _ D). intros s' ev. apply dues_add.
    + pose proof (send_dues (is_task n q) ok (c_sock n) (WRequest false q) s) as D. destruct (send ok (c_sock n) (WRequest false q) s) as [s1 ev| |]; try exact I.
      destruct ok; [|exact I]. apply (dues_bind _ _ (Done s1 ev)); [exact D|]. intro s2.
      apply (sat_weaken _ _ _ (involve_dues (is_task n q) (q_trid q) (c_sock n) (add_task (c_sock n) q s2))). intros s' ev'. apply dues_add.
  - right. unfold queue_request. apply dues_bind; [apply send_dues|]. intro s2.
    apply (sat_weaken _ _ _ (involve_dues (is_task n q) (q_trid q) (c_sock n) (add_task (c_sock n) q s2))). intros s' ev'. apply dues_add.
  - right. unfold queue_request. apply dues_bind; [apply send_dues|]. intro s2.
    apply (sat_weaken _ _ _ (involve_dues (is_task n q) (q_trid q) (c_sock n) (add_task (c_sock n) q s2))). intros s' ev'. apply dues_add.
  - right. unfold connect_request.
    pose proof (dues_bind (is_task n q) (add_task (c_sock n) q s) _ (fun s => send ok (c_sock n) (WRequest (c_old n) q) s) (involve_dues (is_task n q) (q_trid q) (c_sock n) (add_task (c_sock n) q s)) ltac:(intro; apply send_dues)) as D.
    apply (sat_weaken _ _ _ D). intros s' ev. apply dues_add.
Qed.
Definition no_reply (ev : list effect) : Prop := forall p n k code data, ~ In (ToProcess p (Reply n k code data)) ev.
Lemma no_reply_due X s ev : no_reply ev -> due X s ev.
Proof. intros H p n k code data I. exfalso. apply (H _ _ _ _ _ I). Qed.
Lemma add_dest_due X k p f s ev : due X (add_dest k p f s) ev -> due X s ev.
Proof. unfold due. rewrite add_dest_tasks, add_dest_conns. auto. Qed.
Lemma inward_due ok n m s : (forall q, m <> InRequest q) -> sat (inward_step ok n m s) (fun s' ev => due (fun _ => False) s ev).
Proof.
  intro N. destruct m as [q|k data|k|r k p t data|k p data|data]; cbn -[sat].
  - exfalso. eapply N; reflexivity.
  - apply (sat_weaken _ _ _ (send_dues (fun _ => False) _ _ _ _)). intros s' ev [H _]. exact H.
  - unfold disconnect_conversation. destruct (first_task k s) as [t|]; [|apply no_reply_due; intros ? ? ? ? ? []]. destruct (q_kind (k_request t)); try (apply no_reply_due; intros ? ? ? ? ? []).
    destruct (by_sock (k_sock t) s) eqn:B; [|apply no_reply_due; intros ? ? ? ? ? [H|[]]; discriminate].
    unfold send. rewrite B. destruct ok; [|destruct (bind _ _); exact I]. apply no_reply_due. intros ? ? ? ? ? [H|[H|[]]]; discriminate.
  - apply (sat_weaken _ _ _ (send_dues (fun _ => False) _ _ _ _)). intros s' ev [H _]. apply add_dest_due in H. exact H.
  - destruct (s_down s); [apply no_reply_due; intros ? ? ? ? ? [H|[]]; discriminate|]. destruct (is_leaving _ _); [apply no_reply_due; intros ? ? ? ? ? [H|[]]; discriminate|].
    apply (sat_weaken _ _ _ (send_dues (fun _ => False) _ _ _ _)). intros s' ev [H _]. apply add_dest_due in H. exact H.
  - destruct (s_down s); [apply no_reply_due; intros ? ? ? ? ? []|]. destruct (is_leaving _ _); [apply no_reply_due; intros ? ? ? ? ? []|].
    apply (sat_weaken _ _ _ (send_dues (fun _ => False) _ _ _ _)). intros s' ev [H _]. exact H.
Qed.
Lemma unadvertise_no f s p m : ~ In (ToProcess p m) (unadvertise f s).
Proof. unfold unadvertise. destruct (by_sock f s); cbn; intuition discriminate. Qed.
Lemma unadvertise_service_no f x s p m : ~ In (ToProcess p m) (unadvertise_service f x s).
Proof. unfold unadvertise_service. destruct (by_sock f s); cbn; intuition discriminate. Qed.
(* what the remote has replied: for a task there is *)
Definition forwarded (s : state) (m : outward) (ev : list effect) : Prop :=
  forall p n k code data, In (ToProcess p (Reply n k code data)) ev ->
  m = XReply n k code data /\ exists t, In t (s_tasks s) /\ is_request p n k (k_request t) = true.
Lemma reply_forwarded n k code data s : sat (task_reply n k code data s) (fun _ ev => forwarded s (XReply n k code data) ev).
Proof.
  unfold task_reply. destruct (first_task k s) as [t|] eqn:F; [|intros ? ? ? ? ? []]. destruct (kind_eqb _ n) eqn:K; [|intros ? ? ? ? ? []].
  apply find_some in F as [F1 F2]. apply Z.eqb_eq in F2. apply kind_eqb_eq in K.
  assert (U : forall p m, ~ In (ToProcess p m) (if code =? TPENOENT then unadvertise_service (k_sock t) (q_name (k_request t)) s else []))
    by (intros p m; destruct (code =? TPENOENT); [apply unadvertise_service_no|auto]).
  assert (W : forall p n0 k0 c0 d0, ToProcess (q_from (k_request t)) (Reply n k code data) = ToProcess p (Reply n0 k0 c0 d0) ->
     XReply n k code data = XReply n0 k0 c0 d0 /\ exists t0, In t0 (s_tasks s) /\ is_request p n0 k0 (k_request t0) = true).
  { intros p n0 k0 c0 d0 H. injection H as <- <- <- <- <-. split; auto. exists t. split; auto. apply is_request_true. auto. }
  destruct n; cbn -[TPENOENT]; intros p n0 k0 c0 d0 I; cbn -[TPENOENT] in I; rewrite ?in_app_iff in I; cbn in I; specialize (U p (Reply n0 k0 c0 d0)); cbn -[TPENOENT] in U;
    (apply W; intuition discriminate).
Qed.
Lemma outward_replies ok n m s : sat (outward_step ok n m s) (fun s' ev => forwarded s m ev \/ due (fun _ => False) s ev).
Proof.
  destruct m as [nk k code data|k x data|r k data|k ss qs data|k]; cbn -[sat leave take_dest].
  - apply (sat_weaken _ _ _ (reply_forwarded nk k code data s)). auto.
  - unfold task_send. destruct (first_task k s) as [t|]; [|cbn; left; intros ? ? ? ? ? []]. destruct (q_kind (k_request t)); try (cbn; left; intros ? ? ? ? ? []; fail).
    cbn. left. intros ? ? ? ? ? [H|[]]; discriminate.
  - left. cbn. intros ? ? ? ? ? I. destruct (find _ _); cbn in I; intuition discriminate.
  - left. cbn. intros ? ? ? ? ? I. rewrite !in_app_iff in I. destruct (find _ _), ss, qs; cbn in I; intuition discriminate.
  - apply (sat_bind _ _ _ (dues (fun _ => False) s)).
    + cbn. apply dues_none; [reflexivity|now apply from_same|]. intros p m. apply unadvertise_no.
    + intros s1 ev D. apply (sat_weaken _ _ _ (send_dues (fun _ => False) _ _ _ _)). intros s2 ev2 D2. right. apply (dues_trans _ _ _ _ _ _ D D2).
Qed.
Lemma close_all_dues X l s : sat (close_all l s) (dues X s).
Proof.
  revert s. induction l as [|[f x] l IH]; intro s; cbn -[sat]; [apply dues_none; auto; now apply from_same|].
  apply dues_bind; auto. apply dues_bind; [apply lost_dues|]. intro s1. apply dues_none; [reflexivity|now apply from_same|]. destruct x; cbn; intuition discriminate.
Qed.
Lemma leave_all_dues X l s : sat (leave_all l s) (dues X s).
Proof.
  revert s. induction l as [|n l IH]; intro s; cbn -[sat leave]; [apply dues_none; auto; now apply from_same|].
  apply dues_bind; auto. apply dues_none; [reflexivity|now apply from_same|]. intros p m. apply unadvertise_no.
Qed.
Definition loops (i : input) (s : state) (p : ipc) (n : kind) (k : corr) (code data : Z) : Prop :=
  exists c ok q, i = Inward c ok (InRequest q) /\ is_request p n k q = true /\ n = Call /\ code = TPESYSTEM /\ data = 0 /\ has_corr k (s_tasks s) = true.
Lemma step_replies i s : sat (step i s) (fun s' ev => forall p n k code data, In (ToProcess p (Reply n k code data)) ev ->
  (exists c ok, i = Outward c ok (XReply n k code data) /\ exists t, In t (s_tasks s) /\ is_request p n k (k_request t) = true) \/
  loops i s p n k code data \/
  (n <> Connect /\ code = lost_code n /\ data = 0 /\
   exists t m, (In t (s_tasks s) \/ step_adds i s t) /\ is_request p n k (k_request t) = true /\
              In m (s_conns s) /\ c_sock m = k_sock t /\ In (Destroyed (c_ipc m)) ev)).
Proof.
  destruct i as [f c old|c ok m|c ok m|c|g|c| |]; cbn -[sat leave shutdown idle outward_step inward_step].
  - cbn. intros ? ? ? ? ? [H|[]]; discriminate.
  - destruct (by_ipc c s) as [cn|] eqn:B; [|cbn; intros ? ? ? ? ? []]. destruct (match m with InRequest _ => true | _ => false end) eqn:M.
    + destruct m as [q| | | | |]; try discriminate M. destruct (request_dues ok cn q s eq_refl) as [[L1 [L2 L3]]|D].
      * rewrite L3. cbn. intros p n k code data [H|[H|[]]]; [|discriminate]. injection H as <- <- <- <- <-. right; left. exists c, ok, q.
        repeat split; auto. apply is_request_true. auto.
      * apply (sat_weaken _ _ _ D). intros s' ev [D1 _] p n k code data I. right; right. destruct (D1 _ _ _ _ _ I) as [A [A2 [A3 [t [m [E1 E2]]]]]].
        split; [exact A|]. split; [exact A2|]. split; [exact A3|]. exists t, m. split; auto. destruct E1 as [E1|E1]; auto. right. exists cn. split; auto.
    + assert (N : forall q, m <> InRequest q) by (intros q ->; discriminate).
      apply (sat_weaken _ _ _ (inward_due ok cn m s N)). intros s' ev D p n k code data I. right; right. destruct (D _ _ _ _ _ I) as [A [A2 [A3 [t [m0 [[E1|[]] E2]]]]]].
      split; [exact A|]. split; [exact A2|]. split; [exact A3|]. exists t, m0. split; auto.
  - destruct (by_ipc c s) as [cn|] eqn:B; [|cbn; intros ? ? ? ? ? []].
    apply (sat_weaken _ _ _ (outward_replies ok cn m s)). intros s' ev [F|D] p n k code data I.
    + left. destruct (F _ _ _ _ _ I) as [-> F2]. exists c, ok. split; auto.
    + right; right. destruct (D _ _ _ _ _ I) as [A [A2 [A3 [t [m0 [[E1|[]] E2]]]]]]. split; [exact A|]. split; [exact A2|]. split; [exact A3|]. exists t, m0. split; auto.
  - destruct (by_ipc c s) as [cn|] eqn:B; [|cbn; intros ? ? ? ? ? []].
    pose proof (dues_bind (fun _ => False) s _ (fun s => Done s [Lost (c_sock cn)]) (lost_dues (fun _ => False) (c_sock cn) s)
      ltac:(intro s1; apply dues_none; [reflexivity|now apply from_same|cbn; intuition discriminate])) as D.
    apply (sat_weaken _ _ _ D). intros s' ev [D1 _] p n k code data I.
    right; right. destruct (D1 _ _ _ _ _ I) as [A [A2 [A3 [t [m0 [[E1|[]] E2]]]]]]. split; [exact A|]. split; [exact A2|]. split; [exact A3|]. exists t, m0. split; auto.
  - cbn. intros ? ? ? ? ? [].
  - destruct (by_ipc c s) as [cn|]; cbn; [|intros ? ? ? ? ? []]. intros p n k code data I. exfalso. apply (unadvertise_no _ _ _ _ I).
  - unfold shutdown. apply (sat_weaken _ _ _ (leave_all_dues (fun _ => False) _ _)). intros s' ev [D1 _] p n k code data I.
    right; right. destruct (D1 _ _ _ _ _ I) as [A [A2 [A3 [t [m0 [[E1|[]] E2]]]]]]. split; [exact A|]. split; [exact A2|]. split; [exact A3|]. exists t, m0. split; auto.
  - unfold idle. apply (sat_weaken _ _ _ (close_all_dues (fun _ => False) _ _)). intros s' ev [D1 _] p n k code data I.
    right; right. destruct (D1 _ _ _ _ _ I) as [A [A2 [A3 [t [m0 [[E1|[]] E2]]]]]]. split; [exact A|]. split; [exact A2|]. split; [exact A3|]. exists t, m0. split; auto.
Qed.

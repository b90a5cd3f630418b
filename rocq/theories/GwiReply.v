(* What the remotes get. *)
From Coq Require Import ZArith List Bool Lia.
From Verif Require Import GwiModel GwiSpec GwiProofs GwiInv GwiFwd GwiOnce GwiKeep GwiPass.
Import ListNotations.
Local Open Scope Z_scope.

(* ---- at most one reply to each ---- *)
Inductive want := WantCall (k : corr) | WantRm (r : resource) (k : corr).
Definition ans (w : want) (c : ipc) : effect -> bool := match w with WantCall k => replies c Call k | WantRm r k => replies_rm c r k end.
Definition req (w : want) (c : ipc) : input -> bool := match w with WantCall k => requests c Call k | WantRm r k => requests_rm c r k end.
Definition tsk (w : want) (b : body) : bool :=
  match w, b with
  | WantCall k, Service q _ _ => kind_eqb (q_kind q) Call && (q_corr q =? k)
  | WantRm r k, Rm r' k' _ => resource_eqb r' r && (k' =? k)
  | _, _ => false
  end.
Definition own (w : want) (f : sock) (t : task) : bool := (k_sock t =? f) && tsk w (k_body t).
Lemma count_le_without w f k l : (count (own w f) (without_task k l) <= count (own w f) l)%nat.
Proof. induction l as [|a l IH]; cbn; auto. destruct (t_corr a =? k); cbn; lia. Qed.
Lemma count_without w f k l t : find (fun t => t_corr t =? k) l = Some t -> (count (own w f) (without_task k l) + (if own w f t then 1 else 0) = count (own w f) l)%nat.
Proof. induction l as [|a l IH]; cbn; [discriminate|]. destruct (t_corr a =? k); [intro H; injection H as ->; lia|]. intro H. specialize (IH H). cbn. lia. Qed.
Lemma count_set w f k b l t : find (fun t => t_corr t =? k) l = Some t -> tsk w b = tsk w (k_body t) -> count (own w f) (set_task k b l) = count (own w f) l.
Proof.
  induction l as [|a l IH]; cbn; [discriminate|]. destruct (t_corr a =? k); [intro H; injection H as ->|].
  - intro E. cbn. unfold own at 1 3. cbn. rewrite E. reflexivity.
  - intros H E. cbn. rewrite (IH H E). reflexivity.
Qed.
Definition not_remote (e : effect) : Prop := match e with ToRemote _ WLeave => True | ToRemote _ _ => False | _ => True end.
Lemma ans_not_remote w c ev : (forall e, In e ev -> not_remote e) -> count (ans w c) ev = 0%nat.
Proof. intro H. apply count_zero. intros e J. specialize (H e J). destruct w, e as [c' []| | | | | | | | | | | | | |]; cbn in *; tauto. Qed.
Lemma partner_not_remote f m s e : In e (to_partner f m s) -> not_remote e.
Proof. unfold to_partner. destruct (by_sock f s); cbn; [intros [<- | []]; exact I|tauto]. Qed.
Lemma queue_not_remote f p q s e : In e (queue_request f p q s) -> not_remote e.
Proof. unfold queue_request. destruct p; [cbn; intros [<- | []]; exact I|apply partner_not_remote]. Qed.
Lemma closing_not_remote L s s' ev e : closing L s s' ev -> In e ev -> not_remote e.
Proof. intros C J. pose proof (cl_ev _ _ _ _ C e J) as H. destruct e as [c' []| | | | | | | | | | | | | |]; cbn in *; auto. Qed.
Lemma request_not_remote on c q s f q' w l e x : transacts s f q q' w l e -> In x (asks_lookup on c q :: e) -> not_remote x.
Proof.
  intros T [<- | X]; [unfold asks_lookup; destruct (q_kind q); [exact I|exact I| |]; destruct on; exact I|]. destruct T; cbn in X; try tauto. destruct X as [<- | []]; exact I.
Qed.
(* what is sent to a remote is exactly what has arrived *)
Inductive sends (s : state) : input -> ipc -> wire -> Prop :=
| S_forward n m w : In n (s_conns s) -> forwarded m = Some w -> sends s (Internal (c_ipc n) true m) (c_ipc n) w
| S_reply n k code d m q o fnd : In n (s_conns s) -> In m (s_conns s) -> first_task k s = Some (Task (c_sock m) (Service q o fnd)) -> q_kind q = Call -> sends s (Internal (c_ipc n) true (IReply Call k code d)) (c_ipc m) (WReply Call k code d)
| S_rm n r k t code m k0 o : In n (s_conns s) -> In m (s_conns s) -> first_task k s = Some (Task (c_sock m) (Rm r k0 o)) -> sends s (Internal (c_ipc n) true (IResource r k t code)) (c_ipc m) (WResource r k o code).
Lemma step_sends s i s' ev : NoDup (map c_sock (s_conns s)) -> stepd s i s' ev -> (forall e, In e ev -> not_remote e) \/ exists c w, sends s i c w /\ ev = [ToRemote c w].
Proof.
  intros ND E.
  destruct E as [f c0 soft|n on q s' ev J E|n on r k1 t1 d s' ev J E|i Q|n on k1 d f q o name p J F K|n on k1 f q o name p J F K|n on k1 d J|n on J DC|n ok k1 a f q o fnd J F A|n ok k1 name p f q o fnd ev J F EV
    |n ok k1 p f q fnd J F|n ok k1 p f q fnd J F|n ok k1 t1 f q o fnd ev J F EV|n ok k1 t1 f q w J F|n ok k1 t1 f q w p J F|n k1 code d m q o fnd J J2 F K|n r k1 t1 code m k0 o J J2 F|n m w J F X|n k1 d J
    |f q|g|i L s' ev CL C D|c0 k1 d L s1 ev CL C D]; try (left; cbn; intros e H; (destruct H as [<- | []]; exact I) || tauto).
  - left. destruct (request_done _ _ _ _ _ _ ND J E) as (q' & w & l & e & T & _ & ->). intros x. apply (request_not_remote _ _ _ _ _ _ _ _ _ _ T).
  - left. unfold resource_step in E. destruct (cached _ _) as [x|]; injection E as <- <-; [cbn; intros e [<- | []]; exact I|intros e; apply partner_not_remote].
  - left. intro e. apply partner_not_remote.
  - left. subst ev. unfold service_request. intros e X. destruct o; [destruct (trid_eqb _ _)|]; cbn in X; (destruct X as [<- | []]; exact I) || destruct X.
  - left. intro e. apply queue_not_remote.
  - left. subst ev. unfold service_request. intros e X. destruct fnd; cbn in X; (destruct X as [<- | []]; exact I) || destruct X.
  - left. intro e. apply queue_not_remote.
  - right. exists (c_ipc m), (WReply Call k1 code d). split; auto. now apply (S_reply s n k1 code d m q o fnd).
  - right. exists (c_ipc m), (WResource r k1 o code). split; auto. now apply (S_rm s n r k1 t1 code m k0 o).
  - right. exists (c_ipc n), w. split; auto. now apply S_forward.
  - right. exists (c_ipc n), (WSend k1 true d). split; auto. now apply S_forward.
  - left. unfold undelivered. intros e H. destruct (q_kind q); apply partner_not_remote in H; auto.
  - left. intro e. apply (closing_not_remote _ _ _ _ _ C).
  - left. intro e. apply (closing_not_remote _ _ _ _ _ C).
Qed.
Lemma kind_eqb_eq a b : kind_eqb a b = true <-> a = b.
Proof. destruct a, b; cbn; split; congruence. Qed.
Lemma resource_eqb_eq a b : resource_eqb a b = true <-> a = b.
Proof. destruct a, b; cbn; split; congruence. Qed.

Record counted (w : want) (s : state) (h : history) : Prop := {
  n_le : forall c, (count (ans w c) (effects h) <= count (req w c) (inputs h))%nat;
  n_own : forall n, In n (s_conns s) -> (count (ans w (c_ipc n)) (effects h) + count (own w (c_sock n)) (s_tasks s) <= count (req w (c_ipc n)) (inputs h))%nat
}.
Lemma reach_counted w s h : reach s h -> counted w s h.
Proof.
  induction 1 as [|s h i s' ev R [LE OWN] P E]; [constructor; cbn; [lia|tauto]|]. destruct (stepd_of _ _ _ _ _ R P E) as [IV SD].
  assert (QUIET: (forall c, count (ans w c) ev = 0%nat) -> (forall n, In n (s_conns s') -> In n (s_conns s) /\ (count (own w (c_sock n)) (s_tasks s') <= count (own w (c_sock n)) (s_tasks s) + count (req w (c_ipc n)) [i])%nat) -> counted w s' (h ++ [(i, ev)])).
  { intros Z0 T. constructor.
    - intro c. rewrite effects_snoc, inputs_snoc, !count_app, Z0. specialize (LE c). lia.
    - intros n I. destruct (T n I) as [T1 T2]. rewrite effects_snoc, inputs_snoc, !count_app, Z0. specialize (OWN n T1). lia. }
  assert (KQ: (forall c, count (ans w c) ev = 0%nat) -> s_conns s' = s_conns s -> (forall f, (count (own w f) (s_tasks s') <= count (own w f) (s_tasks s))%nat) -> counted w s' (h ++ [(i, ev)])).
  { intros Z0 C T. apply QUIET; auto. intros n I. rewrite C in I. split; auto. specialize (T (c_sock n)). lia. }
  assert (DROP: forall m k b w0, In m (s_conns s) -> first_task k s = Some (Task (c_sock m) b) -> s' = drop_task k s -> ev = [ToRemote (c_ipc m) w0] -> (forall c, ((if ans w c (ToRemote (c_ipc m) w0) then 1 else 0) <= (if (c =? c_ipc m)%Z && tsk w b then 1 else 0))%nat) -> counted w s' (h ++ [(i, ev)])).
  { intros m k b w0 M F -> -> X. assert (Y: forall n, In n (s_conns s) -> (count (ans w (c_ipc n)) (effects h) + (if ans w (c_ipc n) (ToRemote (c_ipc m) w0) then 1 else 0) + count (own w (c_sock n)) (without_task k (s_tasks s)) <= count (req w (c_ipc n)) (inputs h))%nat).
    { intros n I. specialize (OWN n I). pose proof (count_without w (c_sock n) k _ _ F) as CW. specialize (X (c_ipc n)). unfold own in CW at 2. cbn [k_sock k_body] in CW. destruct (Z.eqb_spec (c_ipc n) (c_ipc m)) as [EQ|NE].
      - assert (n = m) by (apply (same_ipc s); auto; apply IV). subst n. rewrite Z.eqb_refl in CW. cbn in *. lia.
      - cbn in X. lia. }
    constructor.
    - intro c. rewrite effects_snoc, inputs_snoc, !count_app. cbn [count]. specialize (X c). specialize (LE c). destruct (Z.eqb_spec c (c_ipc m)) as [->|NE]; [specialize (Y m M); lia|]. cbn in X. lia.
    - intros n I. cbn in I. rewrite effects_snoc, inputs_snoc, !count_app. cbn [count s_tasks drop_task with_tasks]. specialize (Y n I). lia. }
  destruct SD as [f c0 soft|n on q s' ev J E1|n on r k1 t1 d s' ev J E1|i Q|n on k1 d f q o name p J F K|n on k1 f q o name p J F K|n on k1 d J|n on J DC|n ok k1 a f q o fnd J F A|n ok k1 name p f q o fnd ev J F EV
    |n ok k1 p f q fnd J F|n ok k1 p f q fnd J F|n ok k1 t1 f q o fnd ev J F EV|n ok k1 t1 f q w0 J F|n ok k1 t1 f q w0 p J F|n k1 code d m q o fnd J J2 F K|n r k1 t1 code m k0 o J J2 F|n m w0 J F X|n k1 d J
    |f q|g|i L0 s' ev CL C D|c0 k1 d L0 s1 ev CL C D].
  - constructor.
    + intro c. rewrite effects_snoc, inputs_snoc, !count_app. cbn. specialize (LE c). lia.
    + intros n I. cbn in I |- *. rewrite effects_snoc, inputs_snoc, !count_app. cbn. apply in_app_or in I as [I|[<- | []]]; [specialize (OWN n I); lia|]. cbn.
      rewrite (count_zero (own w f)); [specialize (LE c0); lia|]. intros t T. unfold own. destruct (i_task _ _ IV t T) as [c [(m & M1 & M2 & _) _]]. destruct P as [P _]. specialize (P m M1). destruct (Z.eqb_spec (k_sock t) f); [congruence|reflexivity].
  - destruct (request_done _ _ _ _ _ _ (i_sock _ _ IV) J E1) as (q' & w0 & l & e & T & -> & ->). apply QUIET.
    + intro c. apply ans_not_remote. intros x. apply (request_not_remote _ _ _ _ _ _ _ _ _ _ T).
    + cbn. intros m I. split; auto. rewrite count_app. cbn. unfold own at 2. cbn. destruct (Z.eqb_spec (c_sock n) (c_sock m)) as [EQ|NE]; cbn; [|lia]. rewrite (same_sock s n m (i_sock _ _ IV) J I EQ). clear - T.
      unfold body_of. destruct w as [k|r k]; [|destruct (is_service q); cbn; lia]. cbn. rewrite Z.eqb_refl. cbn. destruct (is_service q) eqn:SV; [|lia]. assert (q_kind q' = q_kind q /\ q_corr q' = q_corr q) as [-> ->] by (destruct T; auto). lia.
  - unfold resource_step in E1. assert (X: (forall e, In e ev -> not_remote e) /\ exists o, s' = add_task (c_sock n) (Rm r k1 o) s) by (destruct (cached _ _) as [x|]; injection E1 as <- <-; (split; [|eauto]); [cbn; intros e [<- | []]; exact I|intros e; apply partner_not_remote]).
    destruct X as [X [o ->]]. apply QUIET; [intro; now apply ans_not_remote|]. cbn. intros m I. split; auto. rewrite count_app. cbn. unfold own at 2. cbn. destruct (Z.eqb_spec (c_sock n) (c_sock m)) as [EQ|NE]; cbn; [|lia]. rewrite (same_sock s n m (i_sock _ _ IV) J I EQ).
    destruct w as [k|r0 k0]; cbn; [lia|]. rewrite Z.eqb_refl. cbn. lia.
  - apply KQ; auto.
  - apply KQ; auto. intro; apply ans_not_remote. cbn. intros e [<- | []]; exact I.
  - apply KQ; auto; [intro; apply ans_not_remote; cbn; intros e [<- | []]; exact I|]. intro. apply count_le_without.
  - apply KQ; auto. intro; apply ans_not_remote. cbn. intros e [<- | []]; exact I.
  - apply KQ; auto.
  - apply KQ; auto. intro; apply ans_not_remote. intro e. apply partner_not_remote.
  - apply KQ; auto.
    + intro; apply ans_not_remote. subst ev. unfold service_request. intros e X. destruct o; [destruct (trid_eqb _ _)|]; cbn in X; (destruct X as [<- | []]; exact I) || destruct X.
    + intro f0. cbn. erewrite count_set; [|exact F|destruct w; reflexivity]. lia.
  - apply KQ; auto. intro f0. cbn. erewrite count_set; [|exact F|destruct w; reflexivity]. lia.
  - apply KQ; auto; [intro; apply ans_not_remote; intro e; apply queue_not_remote|]. intro. apply count_le_without.
  - apply KQ; [|apply cache_add_conns|].
    + intro; apply ans_not_remote. subst ev. unfold service_request. intros e X. destruct fnd; cbn in X; (destruct X as [<- | []]; exact I) || destruct X.
    + intro f0. cbn. rewrite cache_add_tasks. erewrite count_set; [|exact F|destruct w; reflexivity]. lia.
  - apply KQ; [auto|apply cache_add_conns|]. intro f0. cbn. rewrite cache_add_tasks. erewrite count_set; [|exact F|destruct w; reflexivity]. lia.
  - apply KQ; [intro; apply ans_not_remote; intro e; apply queue_not_remote|apply cache_add_conns|]. intro. cbn. rewrite cache_add_tasks. apply count_le_without.
  - apply (DROP m k1 _ _ J2 F eq_refl eq_refl). intro c. destruct w as [k|r k]; cbn; [|lia]. rewrite K. cbn. apply first_some in F as [_ F]. unfold t_corr in F; cbn in F. rewrite F, (Z.eqb_sym c (c_ipc m)), ?andb_true_r. lia.
  - apply (DROP m k1 _ _ J2 F eq_refl eq_refl). intro c. destruct w as [k|r0 k]; cbn; [lia|]. apply first_some in F as [_ F]. unfold t_corr in F; cbn in F. rewrite F, (Z.eqb_sym c (c_ipc m)), andb_assoc. lia.
  - apply KQ; auto. intro c. cbn. replace (ans w c (ToRemote (c_ipc n) w0)) with false; [reflexivity|]. destruct w as [k|r k], m as [k' a|k' a|k' t|nk k' code d|k' term d|r' k' t code|k' d|d]; try discriminate F; try (injection F as <-; reflexivity); destruct nk; try discriminate F; injection F as <-; cbn; rewrite ?andb_false_r; reflexivity.
  - apply KQ; auto; [intro; destruct w; reflexivity|]. intro f0. apply filter_count.
  - apply KQ; auto. intro; apply ans_not_remote. unfold undelivered. intros e H. destruct (q_kind q); apply partner_not_remote in H; auto.
  - apply KQ; auto.
  - apply QUIET; [intro; apply ans_not_remote; intro e; apply (closing_not_remote _ _ _ _ _ C)|]. intros n I. split; [apply (closing_in_conns _ _ _ _ _ C I)|]. rewrite (cl_tasks _ _ _ _ C). pose proof (filter_count (own w (c_sock n)) (fun t => negb (hit L0 (k_sock t))) (s_tasks s)). lia.
  - apply QUIET; [intro; apply ans_not_remote; intro e; apply (closing_not_remote _ _ _ _ _ C)|]. intros n I. split; [apply (closing_in_conns _ _ _ _ _ C I)|]. cbn. rewrite (cl_tasks _ _ _ _ C).
    pose proof (filter_count (own w (c_sock n)) (fun t => negb (hit L0 (k_sock t))) (s_tasks s)). pose proof (filter_count (own w (c_sock n)) (fun t => negb (t_corr t =? k1)) (filter (fun t => negb (hit L0 (k_sock t))) (s_tasks s))). lia.
Qed.
Lemma replies_le h c k : happens h -> (count (replies c Call k) (effects h) <= count (requests c Call k) (inputs h))%nat.
Proof. intros [s R]. apply (n_le (WantCall k) s h (reach_counted _ s h R)). Qed.
Lemma replies_rm_le h c r k : happens h -> (count (replies_rm c r k) (effects h) <= count (requests_rm c r k) (inputs h))%nat.
Proof. intros [s R]. apply (n_le (WantRm r k) s h (reach_counted _ s h R)). Qed.

(* ---- the cause ---- *)
Lemma remote_cause h i ev c w : happens (h ++ [(i, ev)]) -> In (ToRemote c w) ev -> w = WLeave \/ (open c h /\ comes_from h i c w).
Proof.
  intros H J. apply happens_snoc in H as (s & s' & R & P & E & R'). destruct (stepd_of _ _ _ _ _ R P E) as [IV SD]. destruct (step_sends _ _ _ _ (i_sock _ _ IV) SD) as [X|(c1 & w1 & X & ->)].
  - apply X in J. destruct w; cbn in J; tauto.
  - destruct J as [J|[]]. injection J as -> ->. right. destruct X as [n m w I F|n k code d m q o fnd I I2 F K|n r k t code m k0 o I I2 F].
    + split; [apply IV; now apply in_map|]. destruct m as [k' a|k' a|k' t|nk k' code d|k' term d|r' k' t code|k' d|d]; try discriminate F; try (injection F as <-; reflexivity). destruct nk; try discriminate F; injection F as <-; reflexivity.
    + split; [apply IV; now apply in_map|]. cbn. split; [eauto|]. destruct (known_now _ _ _ _ IV F) as (c & A & (q0 & B1 & B2 & (S1 & S2 & _) & _) & T1 & T2). exists q0. assert (c = c_ipc m) by (apply (sock_of_unique s c (c_ipc m) (c_sock m)); auto; [apply IV|exists m; auto]). subst c.
      unfold t_corr in T2; cbn in T2. repeat (split; [congruence || auto|]). congruence.
    + split; [apply IV; now apply in_map|]. cbn. split; [eauto|]. destruct (known_now _ _ _ _ IV F) as (c & A & (t0 & B1 & t1 & B2 & B3 & _) & T1 & T2). exists t0, t1. assert (c = c_ipc m) by (apply (sock_of_unique s c (c_ipc m) (c_sock m)); auto; [apply IV|exists m; auto]). subst c.
      unfold t_corr in T2; cbn in T2. subst k0. auto.
Qed.

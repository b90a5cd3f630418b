(* What the processes of this domain get. *)
From Coq Require Import ZArith List Bool Lia.
From Verif Require Import GwiModel GwiSpec GwiProofs GwiInv.
Import ListNotations.
Local Open Scope Z_scope.

Definition fc (s : state) (i : input) (k : corr) (t : task) (p : ipc) (q' : request) : Prop :=
  first_task k s = Some t /\
  match k_body t with
  | Service q o fnd =>
      (exists c ok name, i = Internal c ok (ILookup k (Found name p)) /\ (o = None \/ trid_eqb o (q_trid q) = false) /\ q' = Request (q_kind q) (q_corr q) name (q_trid q) (q_data q) (q_noreply q)) \/
      (exists c ok t' name, i = Internal c ok (IBranch k t') /\ fnd = Some (name, p) /\ q' = Request (q_kind q) (q_corr q) name (Some t') (q_data q) (q_noreply q))
  | Queue q w fnd =>
      (exists c ok, i = Internal c ok (IQueueLookup k (Some p)) /\ w = false /\ q' = q) \/
      (exists c ok t', i = Internal c ok (IBranch k t') /\ fnd = Some (Some p) /\ q' = with_trid (Some t') q)
  | Rm _ _ _ => False
  end.
Definition not_fwd (e : effect) : Prop := match e with ToProcess _ _ _ => False | _ => True end.
Lemma partner_not_fwd f m s e : In e (to_partner f m s) -> not_fwd e.
Proof. unfold to_partner. destruct (by_sock f s); cbn; [intros [<- | []]; exact I|tauto]. Qed.
Lemma closing_not_fwd L s s' ev e : closing L s s' ev -> In e ev -> not_fwd e.
Proof. intros C J. pose proof (cl_ev _ _ _ _ C e J) as H. destruct e; cbn in *; auto. Qed.
Lemma step_fwd s i s' ev : NoDup (map c_sock (s_conns s)) -> stepd s i s' ev -> (forall e, In e ev -> not_fwd e) \/ exists k t p q', fc s i k t p q' /\ ev = [ToProcess p (handle (k_sock t) s) q'].
Proof.
  intros ND E.
  destruct E as [f c soft|n on q s' ev J E|n on r k t d s' ev J E|i Q|n on k d f q o name p J F K|n on k f q o name p J F K|n on k d J|n on J DC|n ok k a f q o fnd J F A|n ok k name p f q o fnd ev J F EV
    |n ok k p f q fnd J F|n ok k p f q fnd J F|n ok k t f q o fnd ev J F EV|n ok k t f q w J F|n ok k t f q w p J F|n k code d m q o fnd J J2 F K|n r k t code m k0 o J J2 F|n m w J F X|n k d J
    |f q|g|i L s' ev CL C D|c k d L s1 ev CL C D]; try (left; cbn; intros e H; (destruct H as [<- | []]; exact I) || tauto).
  - left. destruct (request_done _ _ _ _ _ _ ND J E) as (q' & w & l & e1 & T & -> & ->). intros x [<- | X].
    + unfold asks_lookup. destruct (q_kind q); [exact I|exact I| |]; destruct on; exact I.
    + destruct T; cbn in X; [tauto|tauto|]. destruct X as [<- | []]. exact I.
  - left. unfold resource_step in E. destruct (cached _ _) as [x|]; injection E as <- <-; [cbn; intros e [<- | []]; exact I|intros e; apply partner_not_fwd].
  - left. intro e. apply partner_not_fwd.
  - destruct o as [o|].
    + destruct (trid_eqb (Some o) (q_trid q)) eqn:T; subst ev; [left; cbn; tauto|]. right. exists k, (Task f (Service q (Some o) fnd)), p. eexists. split; [split; [exact F|]|reflexivity]. cbn. left. eauto 8.
    + subst ev. right. exists k, (Task f (Service q None fnd)), p. eexists. split; [split; [exact F|]|reflexivity]. cbn. left. eauto 8.
  - destruct p as [p|]; cbn; [|left; intro e; apply partner_not_fwd]. right. exists k, (Task f (Queue q false fnd)), p, q. split; [split; [exact F|]|reflexivity]. cbn. left. eauto 8.
  - destruct fnd as [[name p]|]; subst ev; [|left; cbn; tauto]. right. exists k, (Task f (Service q o (Some (name, p)))), p. eexists. split; [split; [exact F|]|reflexivity]. cbn. right. eauto 8.
  - destruct p as [p|]; cbn; [|left; intro e; apply partner_not_fwd]. right. exists k, (Task f (Queue q w (Some (Some p)))), p. eexists. split; [split; [exact F|]|reflexivity]. cbn. right. eauto 8.
  - left. unfold undelivered. intros e H. destruct (q_kind q); apply partner_not_fwd in H; auto.
  - left. intro e. apply (closing_not_fwd _ _ _ _ _ C).
  - left. intro e. apply (closing_not_fwd _ _ _ _ _ C).
Qed.

Lemma stepd_of s h i ev s' : reach s h -> possible i s h -> step i s = Done s' ev -> inv s h /\ stepd s i s' ev.
Proof. intros R P E. pose proof (reach_inv _ _ R) as I. split; auto. apply step_stepd; auto; [apply I|destruct i; auto]. Qed.
Lemma sock_open s h c f : inv s h -> sock_of c f s -> open c h.
Proof. intros I (n & A & B & <-). apply I. now apply in_map. Qed.

(* the cause *)
Lemma trid_neq a b : trid_eqb a b = false -> a <> b.
Proof. intros H ->. destruct b as [[g x]|]; cbn in H; [rewrite !Z.eqb_refl in H|]; discriminate. Qed.
Lemma trid_eq a b : trid_eqb a b = true -> a = b.
Proof. destruct a as [[g x]|], b as [[g' y]|]; cbn; try discriminate; auto. intro H. apply andb_true_iff in H as [A B]. apply Z.eqb_eq in A, B. congruence. Qed.
Lemma fwd_cause h i ev p c q' : happens (h ++ [(i, ev)]) -> In (ToProcess p c q') ev ->
  open c h /\ exists q, asked c q h /\ same_request q q' /\ routed q q' p (h ++ [(i, ev)]) /\
    ((q_trid q = None /\ q_trid q' = None) \/ exists t, q_trid q' = Some t /\ from_tm t (h ++ [(i, ev)])).
Proof.
  intros H J. apply happens_snoc in H as (s & s' & R & P & E & R'). destruct (stepd_of _ _ _ _ _ R P E) as [IV SD].
  destruct (step_fwd _ _ _ _ (i_sock s h IV) SD) as [X|(k & t & p1 & q1 & [F X] & ->)]; [now apply X in J|]. destruct J as [J|[]]. injection J as -> <- ->.
  destruct (known_now _ _ _ _ IV F) as (c & A & B & T1 & T2). destruct (handle_of _ _ _ (i_sock s h IV) A) as [-> _]. split; [apply (sock_open s h c _ IV A)|].
  destruct t as [f [q o fnd|q w fnd|r k0 o]]; cbn [k_body k_sock] in *; [| |destruct X].
  - destruct B as (q0 & B1 & B2 & (S1 & S2 & S3 & S4) & B4 & B5 & B6 & B7). exists q0. split; auto. unfold t_corr in T2; cbn in T2. unfold routed. rewrite B2. destruct X as [(c1 & ok & name & -> & X1 & ->)|(c1 & ok & t' & name & -> & X1 & ->)]; cbn.
    + split; [unfold same_request; cbn; auto|]. split; [rewrite <- S2, T2; apply got_now|]. destruct B6 as [B6|[t [B6 B8]]].
      * destruct X1 as [X1|X1]; [left; split; congruence|]. apply trid_neq in X1. congruence.
      * right. exists t. split; auto. now apply from_tm_mono.
    + split; [unfold same_request; cbn; auto|]. split; [rewrite <- S2; apply got_mono; eauto|]. right. exists t'. split; auto. apply from_tm_now.
  - destruct B as (q0 & B1 & B2 & (S1 & S2 & S3 & S4) & B4 & B5 & B6 & B7). exists q0. split; auto. unfold t_corr in T2; cbn in T2. unfold routed. rewrite B2. destruct X as [(c1 & ok & -> & -> & ->)|(c1 & ok & t' & -> & X1 & ->)]; cbn.
    + split; [unfold same_request; cbn; auto|]. split; [split; auto; rewrite <- S2, T2; apply got_now|]. destruct (B6 eq_refl) as [B8|[t [B8 B9]]]; [left; tauto|]. right. exists t. split; auto. now apply from_tm_mono.
    + split; [unfold same_request; cbn; auto|]. split; [split; auto; rewrite <- S2; apply got_mono; eauto|]. right. exists t'. split; auto. apply from_tm_now.
Qed.

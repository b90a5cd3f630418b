(* What is asked is passed on. *)
From Coq Require Import ZArith List Bool Lia.
From Verif Require Import GwiModel GwiSpec GwiProofs GwiInv GwiFwd GwiOnce.
Import ListNotations.
Local Open Scope Z_scope.

(* what may change a task *)
Definition touches (k : corr) (i : input) : bool :=
  match i with
  | Internal _ _ (ILookup k' _) | Internal _ _ (IQueueLookup k' _) | Internal _ _ (IBranch k' _) | Internal _ _ (IReply Call k' _ _) | Internal _ _ (IResource _ k' _ _)
  | Internal _ _ (ISend k' true _) | External _ _ (XDisconnect k') => k' =? k
  | _ => false
  end.
Lemma task_stays s i s' ev t c : NoDup (map c_sock (s_conns s)) -> stepd s i s' ev -> In t (s_tasks s) -> touches (t_corr t) i = false -> sock_of c (k_sock t) s -> In c (map c_ipc (s_conns s')) -> NoDup (map c_ipc (s_conns s)) -> In t (s_tasks s').
Proof.
  intros ND E I T SO CO NI.
  assert (CL0: forall L s1 ev, closing L s s1 ev -> In c (map c_ipc (s_conns s1)) -> In t (s_tasks s1)).
  { intros L s1 ev1 C CO1. rewrite (cl_tasks _ _ _ _ C). apply filter_In. split; auto. apply negb_true_iff. rewrite (cl_conns _ _ _ _ C) in CO1. apply in_map_iff in CO1 as [n [N1 N2]]. apply filter_In in N2 as [N2 N3]. apply negb_true_iff in N3.
    destruct SO as (m & M1 & M2 & M3). rewrite <- M2. assert (m = n) by (apply (same_ipc s); auto; congruence). now subst. }
  destruct E as [f c0 soft|n on q s' ev J E|n on r k1 t1 d s' ev J E|i Q|n on k1 d f q o name p J F K|n on k1 f q o name p J F K|n on k1 d J|n on J DC|n ok k1 a f q o fnd J F A|n ok k1 name p f q o fnd ev J F EV
    |n ok k1 p f q fnd J F|n ok k1 p f q fnd J F|n ok k1 t1 f q o fnd ev J F EV|n ok k1 t1 f q w J F|n ok k1 t1 f q w p J F|n k1 code d m q o fnd J J2 F K|n r k1 t1 code m k0 o J J2 F|n m w J F X|n k1 d J
    |f q|g|i L s' ev CL C D|c0 k1 d L s1 ev CL C D]; auto; cbn in T; try (apply Z.eqb_neq in T).
  - destruct (request_done _ _ _ _ _ _ ND J E) as (q' & w & l & e & _ & -> & _). cbn. apply in_or_app; auto.
  - unfold resource_step in E. destruct (cached _ _) as [x|]; injection E as <- _; cbn; apply in_or_app; auto.
  - apply without_keeps; auto.
  - apply set_keeps; auto.
  - apply set_keeps; auto.
  - apply without_keeps; auto.
  - cbn. rewrite cache_add_tasks. apply set_keeps; auto.
  - cbn. rewrite cache_add_tasks. apply set_keeps; auto.
  - cbn. rewrite cache_add_tasks. apply without_keeps; auto.
  - apply without_keeps; auto.
  - apply without_keeps; auto.
  - cbn. apply filter_In. split; auto. apply negb_true_iff. apply Z.eqb_neq. auto.
  - apply (CL0 L _ _ C CO).
  - cbn. apply filter_In. split; [apply (CL0 L _ _ C CO)|]. apply negb_true_iff. apply Z.eqb_neq. auto.
Qed.

(* ---- the transaction of a request ---- *)
Lemma conn_kept s i s' ev n : inv s [] \/ NoDup (map c_ipc (s_conns s)) -> stepd s i s' ev -> In n (s_conns s) -> In (c_ipc n) (map c_ipc (s_conns s')) -> NoDup (map c_ipc (s_conns s')) -> (forall f c soft, i = Connected f c soft -> c <> c_ipc n) -> In n (s_conns s').
Proof.
  intros NI E I J NI' NC.
  assert (NI0: NoDup (map c_ipc (s_conns s))) by (destruct NI as [NI|NI]; [apply NI|auto]). clear NI.
  assert (CL0: forall L s1 ev, closing L s s1 ev -> In (c_ipc n) (map c_ipc (s_conns s1)) -> In n (s_conns s1)).
  { intros L s1 ev1 C CO1. apply in_map_iff in CO1 as [m [N1 N2]]. assert (m = n); [|now subst]. apply (same_ipc s); auto. rewrite (cl_conns _ _ _ _ C) in N2. now apply filter_In in N2. }
  destruct E as [f c0 soft|n0 on q s' ev J0 E|n0 on r k1 t1 d s' ev J0 E|i Q|n0 on k1 d f q o name p J0 F K|n0 on k1 f q o name p J0 F K|n0 on k1 d J0|n0 on J0 DC|n0 ok k1 a f q o fnd J0 F A|n0 ok k1 name p f q o fnd ev J0 F EV
    |n0 ok k1 p f q fnd J0 F|n0 ok k1 p f q fnd J0 F|n0 ok k1 t1 f q o fnd ev J0 F EV|n0 ok k1 t1 f q w J0 F|n0 ok k1 t1 f q w p J0 F|n0 k1 code d m q o fnd J0 J2 F K|n0 r k1 t1 code m k0 o J0 J2 F|n0 m w J0 F X|n0 k1 d J0
    |f q|g|i L s' ev CL C D|c0 k1 d L s1 ev CL C D]; auto; try (cbn; rewrite ?cache_add_conns; exact I).
  - cbn. apply in_or_app; auto.
  - unfold request_step in E. unfold in_transaction, associate in E. destruct (q_trid q) as [[g b]|]; [destruct (cached g (s_cache s)) as [x|]|]; destruct (q_kind q); injection E as <- _; exact I.
  - unfold resource_step in E. destruct (cached _ _) as [x|]; injection E as <- _; exact I.
  - apply (CL0 L _ _ C J).
  - apply (CL0 L _ _ C J).
Qed.
Lemma open_before h i ev c : open c (h ++ [(i, ev)]) -> connected c h -> open c h.
Proof. intros [_ B] C. split; auto. intro X. apply B. unfold gone. rewrite effects_snoc. apply in_or_app; auto. Qed.
Lemma asked_connected s h c q : reach s h -> asked c q h -> connected c h.
Proof.
  induction 1 as [|s h i s' ev R IH P E]; intros [o I]; [destruct I|]. rewrite inputs_snoc in I. apply in_app_or in I as [I|[I|[]]].
  - apply connected_mono. apply IH. exists o; auto.
  - subst i. cbn in P. apply connected_mono. apply (reach_inv s h R) in P. apply P.
Qed.
(* a connection that is there is the same as before *)
Lemma conn_before s h i ev s' n' : reach s h -> possible i s h -> step i s = Done s' ev -> In n' (s_conns s') -> connected (c_ipc n') h -> In n' (s_conns s).
Proof.
  intros R P E I C. destruct (stepd_of _ _ _ _ _ R P E) as [IV SD]. assert (R': reach s' (h ++ [(i, ev)])) by (econstructor; eauto). pose proof (reach_inv _ _ R') as IV'.
  assert (O: open (c_ipc n') (h ++ [(i, ev)])) by (apply IV'; now apply in_map). apply open_before in O; auto. apply IV in O. apply in_map_iff in O as [n [N1 N2]].
  assert (J: In n (s_conns s')).
  { apply (conn_kept s i s' ev n); auto; [right; apply IV|rewrite N1; now apply in_map|apply IV'|]. intros f c soft ->. destruct P as [_ P2]. intros ->. apply (P2 (c_sock n) (c_soft n)). apply IV. exact N2. }
  assert (n = n'); [|now subst]. apply (same_ipc s'); auto. apply IV'.
Qed.

Definition gtrid_ok (q q0 : request) : Prop := gtrid (q_trid q) = gtrid (q_trid q0).
Definition task_request (b : body) : option request := match b with Service q _ _ | Queue q _ _ => Some q | Rm _ _ _ => None end.
Lemma reach_gtrid s h : reach s h -> unique h -> honest h -> forall t q q0 c, In t (s_tasks s) -> task_request (k_body t) = Some q -> asked c q0 h -> q_corr q0 = q_corr q -> gtrid_ok q q0.
Proof.
  induction 1 as [|s h i s' ev R IH P E]; intros U HO t q q0 c J TR A QC; [destruct J|]. pose proof (unique_snoc _ _ _ U) as U0. specialize (IH U0 (honest_snoc _ _ _ HO)). destruct (stepd_of _ _ _ _ _ R P E) as [IV SD].
  destruct (step_asked _ _ _ _ (i_sock _ _ IV) SD) as [[NR NA]|(n & on & q1 & q' & w & l & e & I & -> & T & -> & ->)].
  2: { pose proof (fresh_request _ _ _ _ _ U) as Z0. cbn in J. apply in_app_or in J as [J|[<- | []]].
    - assert (TC: t_corr t = q_corr q) by (unfold t_corr; destruct (k_body t); cbn in TR; congruence). destruct A as [o A]. rewrite inputs_snoc in A. apply in_app_or in A as [A|[A|[]]].
      + apply (IH t q q0 c); auto. exists o; auto.
      + injection A as _ _ ->. pose proof (task_opens s h t R J). rewrite TC, <- QC in H. lia.
    - assert (QQ: q_corr q = q_corr q1) by (unfold body_of in TR; cbn in TR; destruct (is_service q1); injection TR as <-; destruct T; reflexivity).
      assert (q0 = q1). { apply (asked_unique _ c (c_ipc n) q0 q1 U A); [exists on; rewrite inputs_snoc; apply in_or_app; cbn; auto|congruence]. } subst q0.
      assert (q = q') by (unfold body_of in TR; cbn in TR; destruct (is_service q1); cbn in TR; congruence). subst q. unfold gtrid_ok. destruct T as [T|g b x T G|g b T G]; auto. cbn. apply cached_some in G. destruct (i_cache _ _ IV _ _ G) as [GE _]. now rewrite T, GE. }
  assert (A0: asked c q0 h).
  { destruct A as [o A]. rewrite inputs_snoc in A. apply in_app_or in A as [A|[A|[]]]; [exists o; auto|]. subst i. destruct NR. }
  assert (PUT: forall k2 t2 b s2, first_task k2 s = Some t2 -> s_tasks s2 = s_tasks s -> s' = put_task k2 b s2 -> (forall q2, task_request b = Some q2 -> q_corr q0 = q_corr q2 -> gtrid_ok q2 q0) -> gtrid_ok q q0).
  { intros k2 t2 b s2 F2 S2 -> OK. assert (F2': first_task k2 s2 = Some t2) by (unfold first_task; rewrite S2; exact F2). apply (in_put _ _ _ _ _ F2') in J as [J|J]; [rewrite S2 in J; apply (IH t q q0 c); auto|]. subst t. cbn in TR. auto. }
  assert (BR: forall k c1 ok t, i = Internal c1 ok (IBranch k t) -> q_corr q0 = k -> gtrid (q_trid q0) = Some (fst t)).
  { intros k c1 ok t1 -> <-. destruct (honest_branch _ _ _ _ _ _ _ R HO) as [c' HB]. destruct (branch_asked _ _ _ _ _ R HB) as (q1 & A1 & B1 & C1). destruct (asked_unique _ _ _ _ _ U0 A0 A1 (eq_sym B1)) as [_ ->]. auto. }
  destruct SD as [f c0 soft|n on q1 s' ev J0 E1|n on r k2 t1 d s' ev J0 E1|i Q|n on k2 d f q1 o name p J0 F0 K|n on k2 f q1 o name p J0 F0 K|n on k2 d J0|n on J0 DC|n ok k2 a f q1 o fnd J0 F0 AA|n ok k2 name p f q1 o fnd ev J0 F0 EV
    |n ok k2 p f q1 fnd J0 F0|n ok k2 p f q1 fnd J0 F0|n ok k2 t1 f q1 o fnd ev J0 F0 EV|n ok k2 t1 f q1 w J0 F0|n ok k2 t1 f q1 w p J0 F0|n k2 code d m q1 o fnd J0 J2 F0 K|n r k2 t1 code m k0 o J0 J2 F0|n m w J0 F0 X|n k2 d J0
    |f q1|g|i L0 s' ev CL C D|c0 k2 d L0 s1 ev CL C D]; try (apply (IH t q q0 c); auto; fail).
  - destruct NR.
  - unfold resource_step in E1. destruct (cached _ _) as [x|]; injection E1 as <- _; cbn in J; apply in_app_or in J as [J|[<- | []]]; try (apply (IH t q q0 c); auto; fail); discriminate.
  - apply (IH t q q0 c); auto. now apply in_drop in J.
  - apply (PUT k2 _ _ s F0 eq_refl eq_refl). intros q2 X Y. cbn in X. injection X as <-. apply first_some in F0 as [F0 _]. apply (IH _ q1 q0 c F0); auto.
  - apply (PUT k2 _ _ s F0 eq_refl eq_refl). intros q2 X Y. cbn in X. injection X as <-. apply first_some in F0 as [F0 _]. apply (IH _ q1 q0 c F0); auto.
  - apply (IH t q q0 c); auto. now apply in_drop in J.
  - apply (PUT k2 _ _ (cache_add t1 f s) F0 (cache_add_tasks t1 f s) eq_refl). intros q2 X Y. cbn in X. injection X as <-. unfold gtrid_ok. cbn. symmetry. apply first_some in F0 as [_ F0]. apply (BR k2 (c_ipc n) ok); auto. rewrite Y. exact F0.
  - apply (PUT k2 _ _ (cache_add t1 f s) F0 (cache_add_tasks t1 f s) eq_refl). intros q2 X Y. cbn in X. injection X as <-. unfold gtrid_ok. cbn. symmetry. apply first_some in F0 as [_ F0]. apply (BR k2 (c_ipc n) ok); auto. rewrite Y. exact F0.
  - apply (IH t q q0 c); auto. apply in_drop in J. now rewrite cache_add_tasks in J.
  - apply (IH t q q0 c); auto. now apply in_drop in J.
  - apply (IH t q q0 c); auto. now apply in_drop in J.
  - apply (IH t q q0 c); auto. now apply in_remove in J.
  - apply (IH t q q0 c); auto. rewrite (cl_tasks _ _ _ _ C) in J. now apply filter_In in J.
  - apply (IH t q q0 c); auto. apply in_remove in J. rewrite (cl_tasks _ _ _ _ C) in J. now apply filter_In in J.
Qed.
Lemma fwd_gtrid h i ev p c q' q : happens (h ++ [(i, ev)]) -> unique h -> honest (h ++ [(i, ev)]) -> In (ToProcess p c q') ev -> asked c q h -> q_corr q' = q_corr q -> gtrid (q_trid q') = gtrid (q_trid q).
Proof.
  intros H U HO J A QC. apply happens_snoc in H as (s & s' & R & P & E & R'). destruct (stepd_of _ _ _ _ _ R P E) as [IV SD].
  destruct (step_fwd _ _ _ _ (i_sock s h IV) SD) as [X|(k & t & p1 & q1 & [F0 X] & ->)]; [now apply X in J|]. destruct J as [J|[]]. injection J as -> _ ->.
  apply first_some in F0 as [F1 F2]. pose proof (reach_gtrid s h R U (honest_snoc _ _ _ HO)) as GT.
  assert (BR: forall c1 ok t, i = Internal c1 ok (IBranch k t) -> q_corr q = k -> gtrid (q_trid q) = Some (fst t)).
  { intros c1 ok t1 -> <-. destruct (honest_branch _ _ _ _ _ _ _ R HO) as [c' HB]. destruct (branch_asked _ _ _ _ _ R HB) as (q1 & A1 & B1 & C1). destruct (asked_unique _ _ _ _ _ U A A1 (eq_sym B1)) as [_ ->]. auto. }
  destruct t as [f [q0 o fnd|q0 w fnd|r k0 o]]; cbn [k_body k_sock] in *; [| |destruct X]; unfold t_corr in F2; cbn in F2.
  - destruct X as [(c1 & ok & name & -> & X1 & ->)|(c1 & ok & t' & name & -> & X1 & ->)]; cbn in *.
    + apply (GT _ q0 q c F1); auto.
    + symmetry. eapply BR; eauto. congruence.
  - destruct X as [(c1 & ok & -> & -> & ->)|(c1 & ok & t' & -> & X1 & ->)]; cbn in *.
    + apply (GT _ q0 q c F1); auto.
    + symmetry. eapply BR; eauto. congruence.
Qed.

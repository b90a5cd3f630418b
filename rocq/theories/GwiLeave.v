(* A connection with nothing left to do is closed, and the inbound doesn't end before that. *)
From Coq Require Import ZArith List Bool Lia.
From Verif Require Import GwiModel GwiSpec GwiProofs GwiInv GwiFwd GwiOnce GwiKeep GwiPass GwiReply GwiThere GwiCache GwiClose.
Import ListNotations.
Local Open Scope Z_scope.

(* a lookup whose answer hasn't come; a queue task that waits for the branch *)
Definition unanswered (b : body) (h : history) : Prop :=
  match b with
  | Service q _ None => ~ found (q_corr q) h
  | Service q _ _ => True
  | Queue q w fnd => (fnd = None -> forall x, ~ got (IQueueLookup (q_corr q) x) h) /\ (w = true -> forall t, ~ got (IBranch (q_corr q) t) h) /\ (w = true -> ~ no_branch (q_corr q) h) /\ (fnd <> None -> w = true)
  | Rm _ _ _ => True
  end.
Definition disturbs (b : body) (i : input) : bool :=
  match b, i with
  | Service q _ None, Internal _ _ (ILookup k (Found _ _)) => k =? q_corr q
  | Queue q _ None, Internal _ _ (IQueueLookup k _) => k =? q_corr q
  | Queue q true _, Internal _ _ (IBranch k _) => k =? q_corr q
  | _, _ => false
  end.
Lemma unanswered_more b h i ev : unanswered b h -> disturbs b i = false -> unanswered b (h ++ [(i, ev)]).
Proof.
  intros W A. destruct b as [q o [d|]|q w fnd|r k o]; cbn [unanswered] in *; auto.
  - intros (name & p & X). apply W. exists name, p. apply got_snoc in X as [X|(c & ok & ->)]; auto. cbn in A. rewrite Z.eqb_refl in A. discriminate.
  - destruct W as (W1 & W2 & W3 & W4). split; [|split; [|split]].
    + intros -> x X. apply (W1 eq_refl x). apply got_snoc in X as [X|(c & ok & ->)]; auto. destruct w; cbn in A; rewrite Z.eqb_refl in A; discriminate.
    + intros -> x X. apply (W2 eq_refl x). apply got_snoc in X as [X|(c & ok & ->)]; auto. cbn in A. destruct fnd; cbn in A; rewrite Z.eqb_refl in A; discriminate.
    + intros F X. apply (W3 F). now apply no_branch_before in X.
    + exact W4.
Qed.
Lemma disturb_drops s i s' ev t : step i s = Done s' ev -> (match i with Internal c _ _ => In c (map c_ipc (s_conns s)) | _ => True end) -> (count (at_corr (t_corr t)) (s_tasks s) <= 1)%nat -> (count (at_corr (t_corr t)) (s_tasks s') <= 1)%nat ->
  In t (s_tasks s) -> disturbs (k_body t) i = true -> ~ In t (s_tasks s').
Proof.
  intros E P ONE ONE' I D I'. set (k := t_corr t) in *. pose proof (first_unique k s t ONE I eq_refl) as FT.
  assert (PUT: forall b, s_tasks s' = set_task k b (s_tasks s) -> (forall f, t_corr (Task f b) = k) -> t = Task (k_sock t) b).
  { intros b ES TC. pose proof (set_in k b _ _ FT) as X. rewrite <- ES in X. pose proof (first_unique k s' _ ONE' X (TC _)) as F1. rewrite (first_unique k s' t ONE' I' eq_refl) in F1. now injection F1. }
  assert (DROP: s_tasks s' = without_task k (s_tasks s) -> False) by (intro ES; rewrite ES in I'; now apply (without_none k _ ONE) in I').
  destruct i as [| |c ok m| | | | | |]; try (exfalso; clear -D; destruct (k_body t) as [qq o [d|]|qq [] [x|]|r k1 o]; discriminate D). destruct (by_ipc_in _ _ P) as [n B]. cbn in E. rewrite B in E.
  destruct m as [k1 a|k1 x|k1 t1|nk k1 code d|k1 term d|r k1 t1 code|k1 d|d]; try (exfalso; clear -D; destruct (k_body t) as [q o [d1|]|q [] [x1|]|r1 k2 o]; discriminate D); cbn in E.
  - destruct t as [f [q o [d|]|q [] [x|]|r k2 o]]; cbn in D; try discriminate. destruct a as [name p| |]; try discriminate. apply Z.eqb_eq in D. change k with (q_corr q) in *. subst k1. unfold lookup_reply in E. rewrite FT in E. injection E as <- _. specialize (PUT _ eq_refl (fun _ => eq_refl)). cbn in PUT. congruence.
  - destruct t as [f [q o [d|]|q w [y|]|r k2 o]]; cbn in D; try discriminate; try (destruct w; discriminate). assert (D': (k1 =? q_corr q) = true) by (destruct w; exact D). apply Z.eqb_eq in D'. change k with (q_corr q) in *. subst k1. unfold queue_lookup_reply in E. rewrite FT in E. destruct w; injection E as <- _; [|apply DROP; reflexivity]. specialize (PUT _ eq_refl (fun _ => eq_refl)). cbn in PUT. congruence.
  - destruct t as [f [q o [d|]|q w y|r k2 o]]; cbn in D; try discriminate. destruct w; [|destruct y; discriminate]. assert (D': (k1 =? q_corr q) = true) by (destruct y; exact D). apply Z.eqb_eq in D'. change k with (q_corr q) in *. subst k1. unfold branch_reply in E. rewrite FT in E.
    destruct y as [y|]; injection E as <- _; [apply DROP; cbn; now rewrite cache_add_tasks|]. cbn in PUT. rewrite cache_add_tasks in PUT. specialize (PUT (Queue (with_trid (Some t1) q) false None) eq_refl (fun _ => eq_refl)). congruence.
Qed.
Lemma step_new s i s' ev t : NoDup (map c_sock (s_conns s)) -> stepd s i s' ev -> In t (s_tasks s') ->
  In t (s_tasks s) \/ (exists n on q q' w l e, i = External (c_ipc n) on (XRequest q) /\ In n (s_conns s) /\ transacts s (c_sock n) q q' w l e /\ t = Task (c_sock n) (body_of q q' w) /\ ev = asks_lookup on (c_ipc n) q :: e) \/ (exists r k o, k_body t = Rm r k o) \/
  (exists f q o name p, t = Task f (Service q o (Some (name, p)))) \/
  (exists f q fnd c ok k p, i = Internal c ok (IQueueLookup k p) /\ first_task k s = Some (Task f (Queue q true fnd)) /\ t = Task f (Queue q true (Some p))) \/
  (exists f q o fnd c ok k t1, i = Internal c ok (IBranch k t1) /\ first_task k s = Some (Task f (Service q o fnd)) /\ t = Task f (Service (with_trid (Some t1) q) o fnd)) \/
  (exists f q w c ok k t1, i = Internal c ok (IBranch k t1) /\ first_task k s = Some (Task f (Queue q w None)) /\ t = Task f (Queue (with_trid (Some t1) q) false None)).
Proof.
  intros ND E.
  destruct E as [f c soft|n on q s' ev J E|n on r k t1 d s' ev J E|i Q|n on k d f q o name p J F K|n on k f q o name p J F K|n on k d J|n on J DC|n ok k a f q o fnd J F A|n ok k name p f q o fnd ev J F EV
    |n ok k p f q fnd J F|n ok k p f q fnd J F|n ok k t1 f q o fnd ev J F EV|n ok k t1 f q w J F|n ok k t1 f q w p J F|n k code d m q o fnd J J2 F K|n r k t1 code m k0 o J J2 F|n m w J F X|n k d J
    |f q|g|i L s' ev CL C D|c k d L s1 ev CL C D]; auto.
  - destruct (request_done _ _ _ _ _ _ ND J E) as (q' & w & l & e & T & -> & ->). cbn. intro I. apply in_app_or in I as [I|[<- | []]]; [left; auto|]. right. left. exists n, on, q, q', w, l, e. auto 6.
  - unfold resource_step in E. intro I. assert (X: In t (s_tasks s) \/ exists o, t = Task (c_sock n) (Rm r k o)) by (destruct (cached _ _); injection E as <- <-; cbn in I; apply in_app_or in I as [I|[<- | []]]; eauto). destruct X as [X|[o X]]; [left; auto|]. right. right. left. exists r, k, o. now subst t.
  - intro I. apply in_drop in I. auto.
  - intro I. apply (in_put _ _ _ _ _ F) in I as [I | ->]; auto. do 3 right. left. cbn. eauto 8.
  - intro I. apply (in_put _ _ _ _ _ F) in I as [I | ->]; auto. do 4 right. left. cbn. exists f, q, fnd, (c_ipc n), ok, k, p. auto.
  - intro I. apply in_drop in I. auto.
  - intro I. cbn in I. rewrite cache_add_tasks in I. apply (in_put _ _ s _ _ F) in I as [I | ->]; auto. do 5 right. left. cbn. exists f, q, o, fnd, (c_ipc n), ok, k, t1. auto.
  - intro I. cbn in I. rewrite cache_add_tasks in I. apply (in_put _ _ s _ _ F) in I as [I | ->]; auto. do 6 right. cbn. exists f, q, w, (c_ipc n), ok, k, t1. auto.
  - intro I. apply in_drop in I. rewrite cache_add_tasks in I. auto.
  - intro I. apply in_drop in I. auto.
  - intro I. apply in_drop in I. auto.
  - intro I. apply in_remove in I. auto.
  - intro I. rewrite (cl_tasks _ _ _ _ C) in I. apply filter_In in I as [I _]. auto.
  - intro I. apply in_remove in I. rewrite (cl_tasks _ _ _ _ C) in I. apply filter_In in I as [I _]. auto.
Qed.
Lemma reach_unanswered s h : reach s h -> unique h -> honest h -> forall t, In t (s_tasks s) -> unanswered (k_body t) h.
Proof.
  induction 1 as [|s h i s' ev R IH P E]; intros U HO t T; [destruct T|]. pose proof (unique_snoc _ _ _ U) as U0. pose proof (honest_snoc _ _ _ HO) as HO0. specialize (IH U0 HO0).
  destruct (stepd_of _ _ _ _ _ R P E) as [IV SD]. assert (R': reach s' (h ++ [(i, ev)])) by (econstructor; eauto).
  destruct (step_new s i s' ev t (i_sock _ _ IV) SD T) as [X|[(n1 & on & q1 & q' & w & l & e & -> & I1 & T1 & -> & ->)|[(r & k0 & o & X)|[(f & q & o & name & p & ->)|[(f & q & fnd & c & ok & k & p & -> & F & ->)|[(f & q & o & fnd & c & ok & k & t1 & -> & F & ->)|(f & q & w & c & ok & k & t1 & -> & F & ->)]]]]]].
  - apply unanswered_more; auto. destruct (disturbs (k_body t) i) eqn:D; auto. exfalso. refine (disturb_drops s i s' ev t E _ (tasks_one s h _ R U0) (tasks_one s' _ _ R' U) X D T). destruct i; auto.
  - pose proof (fresh_request _ _ _ _ _ U) as Z0. set (ev := asks_lookup on (c_ipc n1) q1 :: e) in *. assert (NG: forall x, (exists a, x = ILookup (q_corr q1) a) \/ (exists a, x = IQueueLookup (q_corr q1) a) \/ (exists t, x = IBranch (q_corr q1) t) -> ~ got x (h ++ [(External (c_ipc n1) on (XRequest q1), ev)])).
    { intros x X G. apply got_snoc in G as [G|[c2 [ok2 G]]]; [|discriminate]. pose proof (got_answered s h x (q_corr q1) R HO0 G X). lia. }
    assert (QC: q_corr q' = q_corr q1) by (destruct T1; auto). unfold body_of. cbn. destruct (is_service q1); cbn; rewrite QC; [intros (name & p & G); apply NG in G; eauto|].
    split; [intros _ x G; apply NG in G; eauto|]. split; [intros _ x G; apply NG in G; eauto|]. split; [|congruence]. intros -> NB. inversion T1; subst. apply (NB (handle (c_sock n1) s) g). apply in_now. unfold ev. cbn; auto.
  - rewrite X. exact Logic.I.
  - exact Logic.I.
  - destruct (first_some _ _ _ F) as [F1 F2]. pose proof (IH _ F1) as W. cbn in W |- *. destruct W as (W1 & W2 & W3 & W4). split; [discriminate|]. split; [intros _ t G; apply got_snoc in G as [G|[c2 [ok2 G]]]; [now apply (W2 eq_refl) in G|discriminate]|]. split; auto. intros _ NB. apply no_branch_before in NB. now apply W3.
  - destruct (first_some _ _ _ F) as [F1 F2]. pose proof (IH _ F1) as W. cbn in W |- *. destruct fnd; auto. intros (name & p & G). apply got_snoc in G as [G|[c2 [ok2 G]]]; [|discriminate]. apply W. exists name, p. exact G.
  - destruct (first_some _ _ _ F) as [F1 F2]. pose proof (IH _ F1) as W. cbn in W |- *. destruct W as (W1 & W2 & W3 & W4). split; [intros _ x G; apply got_snoc in G as [G|[c2 [ok2 G]]]; [now apply (W1 eq_refl) in G|discriminate]|]. split; [discriminate|]. split; congruence.
Qed.

(* the connection is held by a transaction *)
Lemma holds_more g c h i ev : holds g c h -> i <> Disassociate g -> holds g c (h ++ [(i, ev)]).
Proof.
  intros (h1 & j & e & h2 & q & -> & A & G & X & N) D. exists h1, j, e, (h2 ++ [(i, ev)]), q. split; [now rewrite <- app_assoc|]. split; [now apply asked_mono|]. split; auto. split; auto. intros e' J. apply in_app_or in J as [J|[J|[]]]; [now apply N in J|]. injection J as -> ->. congruence.
Qed.
Lemma step_held s i s' ev g f : NoDup (map c_sock (s_conns s)) -> NoDup (map fst (s_cache s)) -> stepd s i s' ev -> in_cache g f s' -> i <> Disassociate g /\ (in_cache g f s \/
  (exists n on q b, i = External (c_ipc n) on (XRequest q) /\ In n (s_conns s) /\ c_sock n = f /\ q_trid q = Some (g, b)) \/
  (exists c ok k t t0, i = Internal c ok (IBranch k t) /\ fst t = g /\ first_task k s = Some t0 /\ task_request (k_body t0) <> None /\ k_sock t0 = f)).
Proof.
  intros ND NK E.
  assert (SAME: (forall g, i <> Disassociate g) -> s_cache s' = s_cache s -> in_cache g f s' -> i <> Disassociate g /\ (in_cache g f s \/ (exists n on q b, i = External (c_ipc n) on (XRequest q) /\ In n (s_conns s) /\ c_sock n = f /\ q_trid q = Some (g, b)) \/ (exists c ok k t t0, i = Internal c ok (IBranch k t) /\ fst t = g /\ first_task k s = Some t0 /\ task_request (k_body t0) <> None /\ k_sock t0 = f))) by (intros X Y H; split; auto; left; unfold in_cache in *; now rewrite Y in H).
  assert (CLC: forall L s1 ev1, closing L s s1 ev1 -> s_cache s' = s_cache s1 -> in_cache g f s' -> in_cache g f s).
  { intros L s1 ev1 C CA (e & X & Y). apply cached_some in X. rewrite CA, (cl_cache _ _ _ _ C) in X. apply in_cache_after in X as (e0 & X1 & X2 & X3 & _). exists e0. split; [now apply cached_in|]. now apply X3 in Y. }
  assert (ADD: forall t f0, s_cache s' = s_cache (cache_add t f0 s) -> in_cache g f s' -> in_cache g f s \/ (fst t = g /\ f0 = f)).
  { intros t f0 CA (e & X & Y). rewrite CA in X. unfold cache_add in X. destruct (cached (fst t) (s_cache s)) as [e0|] eqn:CT; cbn in X.
    - destruct (Z.eq_dec g (fst t)) as [->|NE].
      + rewrite (update_cached _ _ _ _ CT) in X. injection X as <-. apply add_sock_in in Y as [Y|Y]; [left; exists e0; auto|auto].
      + rewrite update_cached_other in X; auto. left. exists e; auto.
    - rewrite cached_app in X. destruct (cached g (s_cache s)) as [e0|] eqn:CG; [injection X as <-; left; exists e0; auto|]. unfold cached in X; cbn in X. destruct (Z.eqb_spec (fst t) g); [|discriminate]. injection X as <-. destruct Y as [Y|[]]. auto. }
  destruct E as [f1 c soft|n on q s' ev J E|n on r k t1 d s' ev J E|i Q|n on k d f1 q o name p J F K|n on k f1 q o name p J F K|n on k d J|n on J DC|n ok k a f1 q o fnd J F A|n ok k name p f1 q o fnd ev J F EV
    |n ok k p f1 q fnd J F|n ok k p f1 q fnd J F|n ok k t1 f1 q o fnd ev J F EV|n ok k t1 f1 q w J F|n ok k t1 f1 q w p J F|n k code d m q o fnd J J2 F K|n r k t1 code m k0 o J J2 F|n m w J F X|n k d J
    |f1 q|g0|i L s' ev CL C D|c k d L s1 ev CL C D]; try (apply SAME; [discriminate|reflexivity]).
  - destruct (request_done _ _ _ _ _ _ ND J E) as (q' & w & l & e & T & -> & ->). clear SAME CLC ADD. intro H. split; [discriminate|]. destruct T as [T|g0 b x T G|g0 b T G]; [left; exact H| |left; exact H]. destruct H as (y & H1 & H2). cbn in H1. destruct (Z.eq_dec g g0) as [->|NE].
    + rewrite (update_cached _ _ _ _ G) in H1. injection H1 as <-. apply add_sock_in in H2 as [H2|H2]; [left; exists x; auto|]. right. left. exists n, on, q, b. auto.
    + rewrite update_cached_other in H1; auto. left. exists y; auto.
  - apply SAME; [discriminate|]. unfold resource_step in E. destruct (cached _ _); injection E as <- <-; reflexivity.
  - apply SAME; [|reflexivity]. intros g0 ->. destruct Q.
  - intro H. split; [discriminate|]. destruct (ADD t1 f1 eq_refl H) as [X|[X Y]]; auto. right. right. exists (c_ipc n), ok, k, t1, (Task f1 (Service q o fnd)). repeat (split; [solve [auto]|]). split; [discriminate|auto].
  - intro H. split; [discriminate|]. destruct (ADD t1 f1 eq_refl H) as [X|[X Y]]; auto. right. right. exists (c_ipc n), ok, k, t1, (Task f1 (Queue q w None)). repeat (split; [solve [auto]|]). split; [discriminate|auto].
  - intro H. split; [discriminate|]. destruct (ADD t1 f1 eq_refl H) as [X|[X Y]]; auto. right. right. exists (c_ipc n), ok, k, t1, (Task f1 (Queue q w (Some p))). repeat (split; [solve [auto]|]). split; [discriminate|auto].
  - clear. intros (e & X & Y). cbn in X. destruct (Z.eq_dec g g0) as [->|NE]; [now rewrite cached_filtered in X|]. split; [congruence|]. left. rewrite cached_filter in X; auto. exists e; auto.
  - intro H. split; [intros ->; destruct CL|]. left. now apply (CLC L s' ev C).
  - intro H. split; [discriminate|]. left. now apply (CLC L s1 ev C).
Qed.
Lemma reach_held s h : reach s h -> unique h -> honest h -> forall g n, In n (s_conns s) -> in_cache g (c_sock n) s -> holds g (c_ipc n) h.
Proof.
  induction 1 as [|s h i s' ev R IH P E]; intros U HO g n I IC; [destruct I|]. pose proof (unique_snoc _ _ _ U) as U0. pose proof (honest_snoc _ _ _ HO) as HO0. specialize (IH U0 HO0).
  destruct (stepd_of _ _ _ _ _ R P E) as [IV SD]. assert (R': reach s' (h ++ [(i, ev)])) by (econstructor; eauto).
  assert (BEFORE: forall n1, In n1 (s_conns s) -> c_sock n1 = c_sock n -> n1 = n).
  { intros n1 N1 NE. destruct i as [f0 c0 sf| | | | | | | |]; try (apply (same_sock s); auto; [apply IV|]; apply (conn_before s h _ ev s' n R P E I); assert (O: open (c_ipc n) (h ++ [(_, ev)])) by (apply (reach_inv _ _ R'); now apply in_map); destruct O as [(f1 & sf & O1) _]; rewrite inputs_snoc in O1; apply in_app_or in O1 as [O1|[O1|[]]]; [exists f1, sf; auto|discriminate]).
    cbn in E. injection E as <- _. cbn in I. apply in_app_or in I as [I|[<- | []]]; [apply (same_sock s); auto; apply IV|]. exfalso. destruct P as [P _]. apply (P n1 N1). exact NE. }
  destruct (step_held s i s' ev g (c_sock n) (i_sock _ _ IV) (i_keys _ _ IV) SD IC) as [ND [X|[(n1 & on & q & b & -> & I1 & NE & QT)|(c & ok & k & t & t0 & -> & TG & F & TR & TF)]]].
  - apply holds_more; auto. apply IH; auto. destruct X as (e & X1 & X2). apply cached_some in X1. destruct (i_cache _ _ IV _ _ X1) as (_ & _ & _ & SO). destruct (SO _ X2) as (c1 & n1 & N1 & N2 & N3). now rewrite <- (BEFORE n1 N1 N2).
  - rewrite <- (BEFORE n1 I1 NE). exists h, (External (c_ipc n1) on (XRequest q)), ev, [], q. split; auto. split; [exists on; rewrite inputs_snoc; apply in_or_app; cbn; auto|]. split; [now rewrite QT|]. split; [left; eauto|]. intros e' [].
  - destruct (known_now _ _ _ _ IV F) as (c1 & (n1 & N1 & N2 & N3) & KN & T1 & T2). rewrite TF in N2. pose proof (BEFORE n1 N1 N2). subst n1. destruct (honest_branch s h c ok k t ev R HO) as [c2 HB]. destruct (branch_asked s h c2 k (fst t) R HB) as (q2 & A2 & B2 & G2).
    assert (X: exists q1, asked c1 q1 h /\ q_corr q1 = k).
    { destruct t0 as [f [q1 o fnd|q1 w fnd|r k0 o]]; cbn in KN, TR; try congruence; unfold t_corr in T2; cbn in T2; destruct KN as (q3 & K1 & _ & (_ & K2 & _) & _); exists q3; split; auto; congruence. }
    destruct X as (q1 & X1 & X2). destruct (asked_unique h c1 c2 q1 q2) as [<- <-]; auto; [congruence|]. rewrite N3. exists h, (Internal c ok (IBranch k t)), ev, [], q1. split; auto. split; [now apply asked_mono|]. split; [congruence|]. split; [right; exists c, ok, t; congruence|]. intros e' [].
Qed.
Lemma left_disconnectable s h n : reach s h -> unique h -> honest h -> In n (s_conns s) -> nothing_left (c_ipc n) h -> disconnectable (c_sock n) s = true.
Proof.
  intros R U HO I (NL1 & NL2 & NL3 & NL4). pose proof (reach_inv s h R) as IV. apply disconnectable_intro; [apply IV| |].
  - intros t T TS. assert (SO: sock_of (c_ipc n) (k_sock t) s) by (exists n; auto). pose proof (reach_waits s h R U t _ T SO) as W. pose proof (reach_unanswered s h R U HO t T) as UA. destruct (i_task _ _ IV t T) as (c1 & SO1 & KN). assert (c1 = c_ipc n) by (apply (sock_of_unique s _ _ (k_sock t)); auto; apply IV). subst c1.
    destruct (k_body t) as [q o fnd|q w fnd|r k o]; cbn in W, UA, KN.
    + destruct W as (h1 & i & e & h2 & EH & (on & q0 & -> & SV & K1 & K2) & N). destruct (NL1 _ _ _ _ _ EH SV) as [j [J1 J2]]. rewrite K1, K2, (N j J1) in J2. discriminate.
    + destruct KN as (q0 & A & SV & (_ & QC & _) & _). destruct (NL2 q0 A SV) as [[x G] B]. rewrite <- QC in G, B. destruct UA as (W1 & W2 & W3 & W4). destruct fnd as [y|]; [|now apply (W1 eq_refl) in G]. assert (w = true) by (apply W4; discriminate). destruct B as [B|[t1 B]]; [now apply (W3 H)|now apply (W2 H) in B].
    + destruct W as (h1 & i & e & h2 & EH & (on & t0 & d & ->) & N). destruct (NL3 _ _ _ _ _ _ _ _ EH) as (t' & code & c & ok & J). specialize (N _ J). cbn in N. rewrite Z.eqb_refl in N. destruct r; discriminate.
  - intros g IC. apply (NL4 g). now apply (reach_held s h R U HO g n).
Qed.
Lemma leave_closes h c on ev : happens (h ++ [(External c on XLeave, ev)]) -> unique h -> honest h -> nothing_left c h -> In (Destroyed c) ev.
Proof.
  intros H U HO NL. apply happens_snoc in H as (s & s' & R & P & E & R'). cbn in P, E. destruct (by_ipc_in _ _ P) as [n BI]. rewrite BI in E. cbn in E. apply by_ipc_some in BI as [I CN]. rewrite <- CN in NL. rewrite (left_disconnectable s h n R U HO I NL) in E.
  unfold lost in E. rewrite (by_sock_in s n (i_sock _ _ (reach_inv s h R)) I) in E. injection E as _ <-. cbn. left. now rewrite CN.
Qed.
Lemma reach_leaving s h : reach s h -> forall c n, leaves c h -> In n (s_conns s) -> c_ipc n = c -> In (c_sock n) (s_leaving s).
Proof.
  induction 1 as [|s h i s' ev R IH P E]; intros c n [on LV] I CN; [destruct I|]. destruct (stepd_of _ _ _ _ _ R P E) as [IV SD]. rewrite inputs_snoc in LV. apply in_app_or in LV as [LV|[LV|[]]].
  - assert (I0: In n (s_conns s)). { apply (conn_before s h i ev s'); auto. rewrite CN. clear -R LV. induction R as [|s h i s' ev R IH P E]; [destruct LV|]. rewrite inputs_snoc in LV. apply connected_mono. apply in_app_or in LV as [LV|[LV|[]]]; [auto|]. subst i. cbn in P. apply (reach_inv s h R) in P. apply P. }
    specialize (IH c n (ex_intro _ on LV) I0 CN). assert (CLC: forall L s1 ev1, closing L s s1 ev1 -> In n (s_conns s1) -> In (c_sock n) (s_leaving s1)) by (intros L s1 ev1 C X; rewrite (cl_leaving _ _ _ _ C); apply filter_In; split; auto; apply negb_true_iff; apply (not_hit L s s1 ev1 n C X)).
    destruct SD as [f1 c1 soft|n1 on1 q s' ev J E1|n1 on1 r k t1 d s' ev J E1|i Q|n1 on1 k d f1 q o name p J F K|n1 on1 k f1 q o name p J F K|n1 on1 k d J|n1 on1 J DC|n1 ok k a f1 q o fnd J F A|n1 ok k name p f1 q o fnd ev J F EV
    |n1 ok k p f1 q fnd J F|n1 ok k p f1 q fnd J F|n1 ok k t1 f1 q o fnd ev J F EV|n1 ok k t1 f1 q w J F|n1 ok k t1 f1 q w p J F|n1 k code d m q o fnd J J2 F K|n1 r k t1 code m k0 o J J2 F|n1 m w J F X|n1 k d J
    |f1 q|g0|i L s' ev CL C D|c1 k d L s1 ev CL C D]; cbn; rewrite ?cache_add_leaving; auto.
    + destruct (request_done _ _ _ _ _ _ (i_sock _ _ IV) J E1) as (q' & w & l & e & T & -> & ->). exact IH.
    + unfold resource_step in E1. destruct (cached _ _); injection E1 as <- <-; exact IH.
    + apply in_or_app; auto.
    + apply (CLC L s' ev C I).
    + apply (CLC L s1 ev C). exact I.
  - subst i. cbn in P, E. destruct (by_ipc_in _ _ P) as [m BI]. rewrite BI in E. cbn in E. apply by_ipc_some in BI as [I1 CM]. destruct (disconnectable (c_sock m) s) eqn:DC.
    + exfalso. unfold lost in E. rewrite (by_sock_in s m (i_sock _ _ IV) I1) in E. injection E as <- _. cbn in I. apply filter_In in I as [I2 I3]. apply negb_true_iff in I3. apply Z.eqb_neq in I3. apply I3. f_equal. apply (same_ipc s); auto; [apply IV|congruence].
    + injection E as <- _. cbn in *. apply in_or_app. right. left. f_equal. apply (same_ipc s); auto; [apply IV|congruence].
Qed.
Lemma idle_closes h c ev : happens (h ++ [(Idle, ev)]) -> unique h -> honest h -> leaves c h -> open c h -> nothing_left c h -> In (Destroyed c) ev.
Proof.
  intros H U HO LV OP NL. apply happens_snoc in H as (s & s' & R & P & E & R'). destruct (open_conn s h c R OP) as [n [I CN]]. pose proof (reach_leaving s h R c n LV I CN) as X. rewrite <- CN in NL. pose proof (left_disconnectable s h n R U HO I NL) as D.
  destruct (idle_closing s s' ev E) as (L & C & CL & _). cbn in CL. assert (HL: hit L (c_sock n) = true) by (rewrite CL; apply in_existsb; now apply filter_In). apply hit_in in HL as [m [M1 M2]]. pose proof (cl_in _ _ _ _ C m M1) as M3. assert (m = n) by (apply (same_sock s); auto; apply (reach_inv s h R)). subst m. rewrite <- CN. apply (cl_destroyed _ _ _ _ C n M1).
Qed.

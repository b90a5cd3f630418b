(* The transactions of the connections. *)
From Coq Require Import ZArith List Bool Lia.
From Verif Require Import GwiModel GwiSpec GwiProofs GwiInv GwiFwd GwiOnce GwiKeep GwiPass GwiReply GwiThere.
Import ListNotations.
Local Open Scope Z_scope.

Definition settled (b : body) : Prop := match b with Service q o _ => q_trid q <> o | Queue _ w _ => w = false | Rm _ _ _ => False end.

Lemma cached_app g l1 l2 : cached g (l1 ++ l2) = match cached g l1 with Some e => Some e | None => cached g l2 end.
Proof. unfold cached. induction l1 as [|[h x] l IH]; cbn; auto. destruct (h =? g); cbn; auto. Qed.
Lemma in_cache_update g g' f f' l e : cached g l = Some e -> In f (e_socks e) -> exists e', cached g (update g' f' l) = Some e' /\ In f (e_socks e').
Proof.
  intros C I. destruct (Z.eq_dec g g') as [<-|N]; [exists (add_sock f' e); split; [now apply update_cached|apply add_sock_in; auto]|]. exists e. split; auto. now rewrite update_cached_other.
Qed.
Lemma in_cache_add g f t f' s : in_cache g f s -> in_cache g f (cache_add t f' s).
Proof.
  intros (e & C & I). unfold cache_add. destruct (cached (fst t) (s_cache s)) eqn:X; unfold in_cache; cbn.
  - now apply (in_cache_update g (fst t) f f' _ e).
  - exists e. rewrite cached_app, C. auto.
Qed.
Lemma cache_add_in t f s : in_cache (fst t) f (cache_add t f s).
Proof.
  unfold cache_add. destruct (cached (fst t) (s_cache s)) as [e|] eqn:X; unfold in_cache; cbn.
  - exists (add_sock f e). split; [now apply update_cached|apply add_sock_in; auto].
  - exists (Entry t [f]). rewrite cached_app, X. unfold cached; cbn. rewrite Z.eqb_refl. cbn; auto.
Qed.
Lemma closing_in_cache L s s' ev g f : closing L s s' ev -> NoDup (map fst (s_cache s)) -> in_cache g f s -> hit L f = false -> in_cache g f s'.
Proof.
  intros C N (e & A & B) H. apply cached_some in A. destruct (cache_after_in L _ _ _ _ A B H) as (e' & X & _ & Y). exists e'. split; auto. rewrite (cl_cache _ _ _ _ C). apply cached_in; auto. now apply (cache_after_keys L).
Qed.
Lemma not_hit L s s' ev n : closing L s s' ev -> In n (s_conns s') -> hit L (c_sock n) = false.
Proof. intros C I. rewrite (cl_conns _ _ _ _ C) in I. apply filter_In in I as [_ I]. now apply negb_true_iff in I. Qed.
Lemma cached_filter g g' l : g <> g' -> cached g (filter (fun x => negb (fst x =? g')) l) = cached g l.
Proof.
  intro N. unfold cached. induction l as [|[h x] l IH]; cbn; auto. destruct (Z.eqb_spec h g') as [->|]; cbn; [|destruct (h =? g); auto]. destruct (Z.eqb_spec g' g); [congruence|auto].
Qed.
Lemma cached_filtered g l : cached g (filter (fun x => negb (fst x =? g)) l) = None.
Proof. unfold cached. induction l as [|[h x] l IH]; cbn; auto. destruct (Z.eqb_spec h g) as [->|]; cbn; auto. destruct (Z.eqb_spec h g); [congruence|auto]. Qed.

(* what a step does to the tasks and to the cache *)
Lemma step_cached s i s' ev : NoDup (map c_sock (s_conns s)) -> NoDup (map fst (s_cache s)) -> stepd s i s' ev ->
  (forall g n, In n (s_conns s) -> In n (s_conns s') -> in_cache g (c_sock n) s -> i <> Disassociate g -> in_cache g (c_sock n) s') /\
  (forall g, cached g (s_cache s') <> None -> i <> Disassociate g /\ (cached g (s_cache s) <> None \/ exists c ok k t, i = Internal c ok (IBranch k t) /\ fst t = g)) /\
  (forall t, In t (s_tasks s') -> In t (s_tasks s) \/ (exists n on q q' w l e, i = External (c_ipc n) on (XRequest q) /\ transacts s (c_sock n) q q' w l e /\ t = Task (c_sock n) (body_of q q' w) /\ In n (s_conns s) /\ s_cache s' = l) \/
     (exists r k o, k_body t = Rm r k o) \/ (exists t0 c ok t1, i = Internal c ok (IBranch (t_corr t) t1) /\ first_task (t_corr t) s = Some t0 /\ task_request (k_body t0) <> None) \/
     (exists t0, In t0 (s_tasks s) /\ t_corr t0 = t_corr t /\ (settled (k_body t) -> settled (k_body t0)))).
Proof.
  intros ND NK E.
  assert (SAME: s_cache s' = s_cache s -> forall g n, In n (s_conns s) -> In n (s_conns s') -> in_cache g (c_sock n) s -> i <> Disassociate g -> in_cache g (c_sock n) s') by (intros X g n _ _ H _; unfold in_cache; now rewrite X).
  assert (SAME2: (forall g, i <> Disassociate g) -> s_cache s' = s_cache s -> forall g, cached g (s_cache s') <> None -> i <> Disassociate g /\ (cached g (s_cache s) <> None \/ exists c ok k t, i = Internal c ok (IBranch k t) /\ fst t = g)) by (intros Y X g H; rewrite X in H; auto).
  assert (CLC: forall L s1 ev1, closing L s s1 ev1 -> (forall g, i <> Disassociate g) -> s_conns s' = s_conns s1 -> s_cache s' = s_cache s1 -> (forall t, In t (s_tasks s') -> In t (s_tasks s1)) ->
    (forall g n, In n (s_conns s) -> In n (s_conns s') -> in_cache g (c_sock n) s -> i <> Disassociate g -> in_cache g (c_sock n) s') /\
    (forall g, cached g (s_cache s') <> None -> i <> Disassociate g /\ (cached g (s_cache s) <> None \/ exists c ok k t, i = Internal c ok (IBranch k t) /\ fst t = g)) /\ (forall t, In t (s_tasks s') -> In t (s_tasks s))).
  { intros L s1 ev1 C ID CO CA TA. split; [|split].
    - intros g n _ I2 H _. unfold in_cache. rewrite CA. rewrite CO in I2. apply (closing_in_cache L s s1 ev1 g (c_sock n)); auto. apply (not_hit L s s1 ev1); auto.
    - intros g H. split; auto. left. intro X. apply H. destruct (cached g (s_cache s')) as [e|] eqn:Y; auto. apply cached_some in Y. rewrite CA, (cl_cache _ _ _ _ C) in Y. apply in_cache_after in Y as [e0 [Y _]]. now apply (cached_none _ _ _ X) in Y.
    - intros t T. apply TA in T. rewrite (cl_tasks _ _ _ _ C) in T. now apply filter_In in T. }
  destruct E as [f c soft|n on q s' ev J E|n on r k t d s' ev J E|i Q|n on k d f q o name p J F K|n on k f q o name p J F K|n on k d J|n on J DC|n ok k a f q o fnd J F A|n ok k name p f q o fnd ev J F EV
    |n ok k p f q fnd J F|n ok k p f q fnd J F|n ok k t f q o fnd ev J F EV|n ok k t f q w J F|n ok k t f q w p J F|n k code d m q o fnd J J2 F K|n r k t code m k0 o J J2 F|n m w J F X|n k d J
    |f q|g|i L s' ev CL C D|c k d L s1 ev CL C D].
  - split; [now apply SAME|]. split; [apply SAME2; [discriminate|reflexivity]|]. auto.
  - destruct (request_done _ _ _ _ _ _ ND J E) as (q' & w & l & e & T & -> & ->). clear SAME SAME2 CLC. cbn. split; [|split].
    + intros g m _ _ (x & A & B) _. unfold in_cache; cbn. destruct T as [T|g0 b y T G|g0 b T G]; [exists x; auto| |exists x; auto]. now apply (in_cache_update g g0 (c_sock m) (c_sock n) _ x).
    + intros g H. split; [discriminate|]. left. destruct T as [T|g0 b y T G|g0 b T G]; auto. destruct (Z.eq_dec g g0) as [->|N]; [congruence|]. now rewrite update_cached_other in H.
    + intros t I. apply in_app_or in I as [I|[<- | []]]; auto. right. left. exists n, on, q, q', w, l, e. auto.
  - unfold resource_step in E. assert (X: s_cache s' = s_cache s /\ exists o, s_tasks s' = s_tasks s ++ [Task (c_sock n) (Rm r k o)]) by (destruct (cached _ _); injection E as <- <-; cbn; eauto). destruct X as [X [o Y]].
    split; [now apply SAME|]. split; [apply SAME2; [discriminate|auto]|]. intros t0 I. rewrite Y in I. apply in_app_or in I as [I|[<- | []]]; auto. right. right. left. cbn. eauto.
  - split; [now apply SAME|]. split; [apply SAME2; [|reflexivity]|]; [intros g ->; destruct Q|]. auto.
  - split; [now apply SAME|]. split; [apply SAME2; [discriminate|reflexivity]|]. auto.
  - split; [now apply SAME|]. split; [apply SAME2; [discriminate|reflexivity]|]. intros t I. left. now apply in_drop in I.
  - split; [now apply SAME|]. split; [apply SAME2; [discriminate|reflexivity]|]. auto.
  - split; [now apply SAME|]. split; [apply SAME2; [discriminate|reflexivity]|]. auto.
  - split; [now apply SAME|]. split; [apply SAME2; [discriminate|reflexivity]|]. auto.
  - split; [now apply SAME|]. split; [apply SAME2; [discriminate|reflexivity]|]. intros t I. apply (in_put _ _ _ _ _ F) in I as [I|I]; auto. do 4 right. exists (Task f (Service q o fnd)). pose proof (first_some _ _ _ F) as [F1 F2]. split; auto. subst t. cbn. split; auto.
  - split; [now apply SAME|]. split; [apply SAME2; [discriminate|reflexivity]|]. intros t I. apply (in_put _ _ _ _ _ F) in I as [I|I]; auto. do 4 right. exists (Task f (Queue q true fnd)). pose proof (first_some _ _ _ F) as [F1 F2]. split; auto. subst t. cbn. split; auto.
  - split; [now apply SAME|]. split; [apply SAME2; [discriminate|reflexivity]|]. intros t I. left. now apply in_drop in I.
  - clear SAME SAME2 CLC. cbn. split; [intros g m _ _ H _; now apply (in_cache_add g (c_sock m) t f) in H|]. split.
    + intros g H. split; [discriminate|]. destruct (Z.eq_dec (fst t) g) as [X|N]; [right; eauto 8|]. left. unfold cache_add in H. destruct (cached (fst t) (s_cache s)) eqn:Y; cbn in H; [rewrite update_cached_other in H; auto|]. rewrite cached_app in H. intro Z0. rewrite Z0 in H. apply H. unfold cached; cbn. destruct (Z.eqb_spec (fst t) g); [contradiction|auto].
    + intros t0 I. rewrite cache_add_tasks in I. apply in_set in I as [I|[t1 [I ->]]]; auto. do 3 right. left. unfold first_task in F. rewrite F in I. injection I as <-. exists (Task f (Service q o fnd)), (c_ipc n), ok, t. pose proof (first_some k s _ F) as [_ F2]. unfold t_corr in F2 |- *; cbn in F2 |- *. rewrite F2. repeat (split; auto). discriminate.
  - clear SAME SAME2 CLC. cbn. split; [intros g m _ _ H _; now apply (in_cache_add g (c_sock m) t f) in H|]. split.
    + intros g H. split; [discriminate|]. destruct (Z.eq_dec (fst t) g) as [X|N]; [right; eauto 8|]. left. unfold cache_add in H. destruct (cached (fst t) (s_cache s)) eqn:Y; cbn in H; [rewrite update_cached_other in H; auto|]. rewrite cached_app in H. intro Z0. rewrite Z0 in H. apply H. unfold cached; cbn. destruct (Z.eqb_spec (fst t) g); [contradiction|auto].
    + intros t0 I. rewrite cache_add_tasks in I. apply in_set in I as [I|[t1 [I ->]]]; auto. do 3 right. left. unfold first_task in F. rewrite F in I. injection I as <-. exists (Task f (Queue q w None)), (c_ipc n), ok, t. pose proof (first_some k s _ F) as [_ F2]. unfold t_corr in F2 |- *; cbn in F2 |- *. rewrite F2. repeat (split; auto). discriminate.
  - clear SAME SAME2 CLC. cbn. split; [intros g m _ _ H _; now apply (in_cache_add g (c_sock m) t f) in H|]. split.
    + intros g H. split; [discriminate|]. destruct (Z.eq_dec (fst t) g) as [X|N]; [right; eauto 8|]. left. unfold cache_add in H. destruct (cached (fst t) (s_cache s)) eqn:Y; cbn in H; [rewrite update_cached_other in H; auto|]. rewrite cached_app in H. intro Z0. rewrite Z0 in H. apply H. unfold cached; cbn. destruct (Z.eqb_spec (fst t) g); [contradiction|auto].
    + intros t0 I. left. apply in_without in I. now rewrite cache_add_tasks in I.
  - split; [now apply SAME|]. split; [apply SAME2; [discriminate|reflexivity]|]. intros t I. left. now apply in_drop in I.
  - split; [now apply SAME|]. split; [apply SAME2; [discriminate|reflexivity]|]. intros t0 I. left. now apply in_drop in I.
  - split; [now apply SAME|]. split; [apply SAME2; [discriminate|reflexivity]|]. auto.
  - split; [now apply SAME|]. split; [apply SAME2; [discriminate|reflexivity]|]. intros t0 I. left. now apply in_remove in I.
  - split; [now apply SAME|]. split; [apply SAME2; [discriminate|reflexivity]|]. auto.
  - clear SAME SAME2 CLC. cbn. split; [|split; [|auto]].
    + intros g0 n _ _ (e & A & B) N. exists e. cbn. rewrite cached_filter; auto. congruence.
    + intros g0 H. destruct (Z.eq_dec g0 g) as [->|N]; [now rewrite cached_filtered in H|]. rewrite cached_filter in H; auto. split; auto. congruence.
  - destruct (CLC L s' ev C) as (A & B & T); auto. intros g ->; destruct CL.
  - destruct (CLC L s1 ev C) as (A & B & T); auto; [discriminate|intros t I; now apply in_remove in I].
Qed.
Lemma branch_caches s s' ev k t t0 c ok : step (Internal c ok (IBranch k t)) s = Done s' ev -> In c (map c_ipc (s_conns s)) -> first_task k s = Some t0 -> task_request (k_body t0) <> None -> in_cache (fst t) (k_sock t0) s'.
Proof.
  intros E P F TR. cbn in E. destruct (by_ipc_in _ _ P) as [n B]. rewrite B in E. cbn in E. unfold branch_reply in E. rewrite F in E. pose proof (cache_add_in t (k_sock t0) s) as X. unfold in_cache in *.
  destruct t0 as [f [q o fnd|q w [p|]|r k0 o]]; cbn in *; [| | |congruence]; injection E as <- _; exact X.
Qed.

Definition book (g : Z) (k : corr) (n : conn) (s : state) (h : history) : Prop :=
  ((1 <= F k h)%nat -> in_cache g (c_sock n) s) /\ (forall t, In t (s_tasks s) -> t_corr t = k -> settled (k_body t) -> in_cache g (c_sock n) s).
Lemma booked_snoc g c k h i ev : booked g c k (h ++ [(i, ev)]) -> (booked g c k h /\ i <> Disassociate g) \/ exists o q b, i = External c o (XRequest q) /\ q_trid q = Some (g, b) /\ q_corr q = k.
Proof.
  intros (h1 & o & q & b & e & h2 & H & A & B & N). destruct h2 as [|x h2 _] using rev_ind.
  - apply app_inj_tail in H as [-> H]. injection H as -> ->. right. eauto 6.
  - rewrite app_comm_cons, app_assoc in H. apply app_inj_tail in H as [-> <-]. left. split; [|intros ->; apply (N ev); apply in_or_app; cbn; auto].
    exists h1, o, q, b, e, h2. repeat (split; auto). intros ev' J. apply (N ev'). apply in_or_app; auto.
Qed.
Lemma booked_asked g c k h : booked g c k h -> exists q b, asked c q h /\ q_trid q = Some (g, b) /\ q_corr q = k.
Proof. intros (h1 & o & q & b & e & h2 & -> & A & B & _). exists q, b. split; auto. exists o. rewrite inputs_app. apply in_or_app. cbn; auto. Qed.
Lemma reach_book s h : reach s h -> unique h -> honest h -> forall g c k n, booked g c k h -> In n (s_conns s) -> c_ipc n = c -> book g k n s h.
Proof.
  induction 1 as [|s h i s' ev R IH P E]; intros U HO g c k n BK I CN; [destruct I|]. pose proof (unique_snoc _ _ _ U) as U0. pose proof (honest_snoc _ _ _ HO) as HO0. pose proof (stepd_of _ _ _ _ _ R P E) as [IV SD].
  destruct (step_cached s i s' ev (i_sock _ _ IV) (i_keys _ _ IV) SD) as (KEEP & _ & TASKS).
  apply booked_snoc in BK as [[BK ND]|(o & q & b & -> & QT & QC)].
  - destruct (booked_asked _ _ _ _ BK) as (q0 & b0 & A0 & QT & QC). assert (I0: In n (s_conns s)) by (apply (conn_before s h i ev s'); auto; rewrite CN; apply (asked_connected s h c q0 R A0)).
    destruct (IH U0 HO0 g c k n BK I0 CN) as [BF BT]. specialize (KEEP g n I0 I). assert (IC: in_cache g (c_sock n) s -> in_cache g (c_sock n) s') by auto.
    assert (OWN: forall t0, first_task k s = Some t0 -> task_request (k_body t0) <> None -> k_sock t0 = c_sock n).
    { intros t0 F0 TR. destruct (known_now _ _ _ _ IV F0) as (c1 & SO & KN & T1 & T2). assert (X: exists q1, asked c1 q1 h /\ q_corr q1 = k).
      { destruct t0 as [f [q1 o fnd|q1 w fnd|r k0 o]]; cbn in KN, TR; try congruence; unfold t_corr in T2; cbn in T2; destruct KN as (q2 & K1 & _ & (_ & K2 & _) & _); exists q2; split; auto; congruence. }
      destruct X as (q1 & X1 & X2). destruct (asked_unique h c c1 q0 q1) as [<- _]; auto; [congruence|]. destruct SO as (m & M1 & <- & M3). assert (m = n) by (apply (same_ipc s); auto; [apply IV|congruence]). now subst m. }
    assert (BRANCH: forall t0 c1 ok t1, i = Internal c1 ok (IBranch k t1) -> first_task k s = Some t0 -> task_request (k_body t0) <> None -> in_cache g (c_sock n) s').
    { intros t0 c1 ok t1 -> F0 TR. destruct (honest_branch s h c1 ok k t1 ev R HO) as [c2 HB]. destruct (branch_asked s h c2 k (fst t1) R HB) as (q2 & A2 & B2 & G2). destruct (asked_unique h c c2 q0 q2) as [_ <-]; auto; [congruence|]. rewrite QT in G2. cbn in G2. injection G2 as G2.
      rewrite <- (OWN t0 F0 TR), G2. apply (branch_caches s s' ev k t1 t0 c1 ok E P F0 TR). }
    split.
    + rewrite F_snoc. intro FW. destruct (F k h) eqn:FK; [|apply IC, BF; lia]. destruct (step_fwd _ _ _ _ (i_sock _ _ IV) SD) as [X|(k1 & t & p & q' & [F0 X] & ->)]; [rewrite (not_fwd_count k ev X) in FW; lia|].
      cbn in FW. assert (QK: q_corr q' = k) by (destruct (Z.eqb_spec (q_corr q') k); [auto|cbn in FW; lia]). clear FW. pose proof (first_some _ _ _ F0) as [F1 F2].
      destruct t as [f [q1 o fnd|q1 w fnd|r k0 o]]; cbn [k_body] in X; [| |destruct X]; unfold t_corr in F2; cbn in F2.
      * destruct X as [(c1 & ok & name & -> & X1 & ->)|(c1 & ok & t' & name & -> & X1 & ->)]; cbn in QK; rewrite QK in F2; subst k1.
        -- apply IC. apply (BT _ F1); [exact QK|]. cbn. destruct X1 as [->|X1]; [|apply trid_neq in X1; congruence]. exfalso. destruct (i_task _ _ IV _ F1) as (c2 & _ & KN). cbn in KN. destruct KN as (q2 & K1 & _ & (_ & K2 & _) & _ & K3 & _). destruct (asked_unique h c c2 q0 q2) as [_ <-]; auto; congruence.
        -- apply (BRANCH _ _ _ _ eq_refl F0). discriminate.
      * destruct X as [(c1 & ok & -> & -> & ->)|(c1 & ok & t' & -> & X1 & ->)]; cbn in QK; rewrite QK in F2; subst k1.
        -- apply IC. apply (BT _ F1); [exact QK|reflexivity].
        -- apply (BRANCH _ _ _ _ eq_refl F0). discriminate.
    + intros t T TC ST. destruct (TASKS t T) as [X|[(n1 & on & q1 & q' & w & l & e & -> & T1 & -> & _)|[(r & k0 & o & X)|[(t0 & c1 & ok & t1 & X1 & X2 & X3)|(t0 & X1 & X2 & X3)]]]].
      * apply IC. now apply (BT t).
      * exfalso. assert (QK: q_corr q1 = k) by (rewrite <- TC; unfold body_of, t_corr; cbn; destruct T1; destruct (is_service q1); auto). pose proof (fresh_request _ _ _ _ _ U) as Z0. pose proof (asked_opens h c q0 A0). rewrite QC in H. rewrite QK in Z0. lia.
      * rewrite X in ST. destruct ST.
      * rewrite TC in X1, X2. now apply (BRANCH t0 c1 ok t1).
      * apply IC. apply (BT t0); auto. congruence.
  - clear TASKS. pose proof (fresh_request _ _ _ _ _ U) as Z0. destruct (step_asked _ _ _ _ (i_sock _ _ IV) SD) as [[NR _]|(m & on' & q1 & q' & w & l & e & I1 & EQ & T & -> & ->)]; [destruct NR|]. injection EQ as -> <- <-.
    cbn in I. assert (m = n) by (apply (same_ipc s); auto; apply IV). subst m. split.
    + rewrite F_snoc. intro X. exfalso. assert (Y: count (forwards k) (asks_lookup o (c_ipc n) q :: e) = 0%nat) by (apply count_zero; intros x J; destruct J as [<- | J]; [unfold asks_lookup; destruct (q_kind q); auto; destruct o; auto|destruct T; cbn in J; try tauto; destruct J as [<- | []]; auto]).
      pose proof (fwd_opens s h k R). rewrite QC in Z0. lia.
    + cbn. intros t J TC ST. apply in_app_or in J as [J|[<- | []]]; [pose proof (task_opens s h t R J) as X; rewrite TC in X; rewrite QC in Z0; lia|]. unfold in_cache; cbn. destruct T as [T|g0 b0 x T G|g0 b0 T G].
      * congruence.
      * rewrite QT in T. injection T as <- <-. exists (add_sock (c_sock n) x). split; [now apply update_cached|apply add_sock_in; auto].
      * exfalso. unfold body_of in ST. destruct (is_service q); cbn in ST; congruence.
Qed.

(* ---- what the TM gets ---- *)
Lemma resource_step_of h c on r k t d ev : happens (h ++ [(External c on (XResource r k t d), ev)]) -> exists s s' n, reach s h /\ In n (s_conns s) /\ c_ipc n = c /\ resource_step n r k t d s = Done s' ev /\ handle (c_sock n) s = c /\ (forall m, to_partner (c_sock n) m s = [ToPartner c m]).
Proof.
  intro H. apply happens_snoc in H as (s & s' & R & P & E & R'). cbn in P, E. destruct (by_ipc_in _ _ P) as [n BI]; rewrite BI in E; cbn in E. apply by_ipc_some in BI as [I CN]. pose proof (reach_inv s h R) as IV.
  exists s, s', n. repeat (split; [solve [auto]|]). split; [rewrite <- CN; apply handle_conn; auto; apply IV|]. intro m. apply to_partner_of; [apply IV|exists n; auto].
Qed.
Lemma forwards_in p c q' k h : In (ToProcess p c q') (effects h) -> q_corr q' = k -> (1 <= F k h)%nat.
Proof. intros I E. unfold F. apply (count_in _ _ _ I). cbn. now apply Z.eqb_eq. Qed.
Lemma tm_passed h c c' on r k t d ev : happens (h ++ [(External c on (XResource r k t d), ev)]) -> unique h -> honest h -> uses (fst t) c' h -> open c' h -> exists b, ev = [ToTM c r k (fst t, b) d].
Proof.
  intros H U HO (k1 & BK & p & q' & FW & QC) OP. destruct (resource_step_of _ _ _ _ _ _ _ _ H) as (s & s' & n & R & I & CN & E & HC & _). destruct (open_conn s h c' R OP) as [m [M1 M2]].
  destruct (reach_book s h R U HO (fst t) c' k1 m BK M1 M2) as [BF _]. destruct (BF (forwards_in _ _ _ _ _ FW QC)) as (e & C & _). unfold resource_step in E. rewrite C, HC in E. injection E as _ <-.
  apply cached_some in C. apply (i_cache _ _ (reach_inv s h R)) in C as [C _]. exists (snd (e_trid e)). destruct (e_trid e); cbn in *; now subst.
Qed.
Lemma step_tm s i s' ev c r k t d : stepd s i s' ev -> In (ToTM c r k t d) ev -> exists n on t0, i = External (c_ipc n) on (XResource r k t0 d) /\ In n (s_conns s) /\ exists e, cached (fst t0) (s_cache s) = Some e /\ t = e_trid e /\ c = handle (c_sock n) s.
Proof.
  intros E H.
  assert (NP: forall f m, ~ In (ToTM c r k t d) (to_partner f m s)) by (intros f m; unfold to_partner; destruct (by_sock f s); cbn; intros X; [destruct X as [X|[]]; discriminate|tauto]).
  assert (NC: forall L s1 ev1, closing L s s1 ev1 -> ~ In (ToTM c r k t d) ev1) by (intros L s1 ev1 C X; now apply (cl_ev _ _ _ _ C) in X).
  destruct E as [f c0 soft|n on q s' ev J E|n on r1 k1 t1 d1 s' ev J E|i Q|n on k1 d1 f q o name p J F K|n on k1 f q o name p J F K|n on k1 d1 J|n on J DC|n ok k1 a f q o fnd J F A|n ok k1 name p f q o fnd ev J F EV
    |n ok k1 p f q fnd J F|n ok k1 p f q fnd J F|n ok k1 t1 f q o fnd ev J F EV|n ok k1 t1 f q w J F|n ok k1 t1 f q w p J F|n k1 code d1 m q o fnd J J2 F K|n r1 k1 t1 code m k0 o J J2 F|n m w J F X|n k1 d1 J
    |f q|g|i L s' ev CL C D|c0 k1 d1 L s1 ev CL C D]; try (exfalso; cbn in H; (destruct H as [H|[]]; discriminate) || tauto).
  - exfalso. unfold request_step in E. destruct (in_transaction (c_sock n) q s) as [[[q' w] s1] e] eqn:IT. assert (X: forall x, In x e -> exists a b c, x = Branch a b c) by (unfold in_transaction in IT; destruct (q_trid q) as [[g b]|]; [unfold associate in IT; destruct (cached _ _)|]; injection IT as <- <- <- <-; cbn; try tauto; intros x [<- | []]; eauto).
    assert (Y: exists x, ev = x ++ e /\ ~ In (ToTM c r k t d) x) by (destruct (q_kind q); injection E as <- <-; [eexists [_]|eexists [_]|eexists (if on then _ else _)|eexists (if on then _ else _)]; (split; [reflexivity|]); try destruct on; cbn; intros [Z0|[]]; discriminate).
    destruct Y as (x & -> & Y). apply in_app_or in H as [H|H]; [auto|]. apply X in H as (a1 & a2 & a3 & H). discriminate.
  - unfold resource_step in E. destruct (cached (fst t1) (s_cache s)) as [e|] eqn:C; injection E as <- <-; [|now apply NP in H]. destruct H as [H|[]]. injection H as <- <- <- <- <-. exists n, on, t1. split; auto. split; auto. eauto.
  - now apply NP in H.
  - exfalso. subst ev. unfold service_request in H. destruct o as [o|]; [destruct (trid_eqb (Some o) (q_trid q))|]; cbn in H; (destruct H as [H|[]]; discriminate) || tauto.
  - exfalso. unfold queue_request in H. destruct p; [|now apply NP in H]. destruct H as [H|[]]; discriminate.
  - exfalso. subst ev. unfold service_request in H. destruct fnd; cbn in H; (destruct H as [H|[]]; discriminate) || tauto.
  - exfalso. unfold queue_request in H. destruct p; [|now apply NP in H]. destruct H as [H|[]]; discriminate.
  - exfalso. unfold undelivered in H. destruct (q_kind q); now apply NP in H.
  - now apply (NC _ _ _ C) in H.
  - now apply (NC _ _ _ C) in H.
Qed.
Lemma tm_cause h i ev c r k t d : happens (h ++ [(i, ev)]) -> In (ToTM c r k t d) ev -> open c h /\ from_tm t h /\ exists on t0, i = External c on (XResource r k t0 d) /\ fst t = fst t0.
Proof.
  intros H J. apply happens_snoc in H as (s & s' & R & P & E & R'). destruct (stepd_of _ _ _ _ _ R P E) as [IV SD]. destruct (step_tm _ _ _ _ _ _ _ _ _ SD J) as (n & on & t0 & -> & I & e & C & -> & ->).
  rewrite (handle_conn _ _ (i_sock _ _ IV) I). split; [apply IV; now apply in_map|]. apply cached_some in C. apply (i_cache _ _ IV) in C as (C1 & C2 & _). split; auto. exists on, t0. auto.
Qed.
Lemma carries_tm h e t : happens h -> In e (effects h) -> carries e t -> from_tm t h.
Proof.
  intros [s R]. induction R as [|s h i s' ev R IH P E]; [intros []|]. rewrite effects_snoc. intros J CA. apply in_app_or in J as [J|J]; [now apply from_tm_mono, IH|].
  assert (H: happens (h ++ [(i, ev)])) by (exists s'; econstructor; eauto). destruct e as [| p c q| | | | | | | | |c r k t' d| | | |]; cbn in CA; try tauto.
  - destruct (fwd_cause h i ev p c q H J) as (_ & q0 & _ & _ & _ & [[_ X]|[t' [X Y]]]); congruence.
  - subst t'. destruct (tm_cause h i ev c r k t d H J) as (_ & X & _). now apply from_tm_mono.
Qed.
Lemma same_branch h e1 e2 t1 t2 : happens h -> tm_consistent h -> In e1 (effects h) -> In e2 (effects h) -> carries e1 t1 -> carries e2 t2 -> fst t1 = fst t2 -> t1 = t2.
Proof. intros H T I1 I2 C1 C2. apply T; [apply (carries_tm h e1)|apply (carries_tm h e2)]; auto. Qed.

(* the TM has said that it's over, since *)
Lemma cached_given s h g : reach s h -> cached g (s_cache s) <> None -> exists h1 c ok k t ev h2, h = h1 ++ (Internal c ok (IBranch k t), ev) :: h2 /\ fst t = g /\ forall ev', ~ In (Disassociate g, ev') h2.
Proof.
  induction 1 as [|s h i s' ev R IH P E]; intro C; [now destruct C|]. destruct (stepd_of _ _ _ _ _ R P E) as [IV SD]. destruct (step_cached s i s' ev (i_sock _ _ IV) (i_keys _ _ IV) SD) as (_ & CA & _). destruct (CA g C) as [ND [X|(c & ok & k & t & -> & X)]].
  - destruct (IH X) as (h1 & c & ok & k & t & e & h2 & -> & A & B). exists h1, c, ok, k, t, e, (h2 ++ [(i, ev)]). rewrite <- app_assoc. split; auto. split; auto. intros ev' J. apply in_app_or in J as [J|[J|[]]]; [now apply B in J|]. injection J as -> ->. congruence.
  - exists h, c, ok, k, t, ev, []. auto.
Qed.
Lemma tm_unknown h c on r k t d ev : happens (h ++ [(External c on (XResource r k t d), ev)]) -> over (fst t) h -> ev = [ToPartner c (IResource r k (Some t) XAER_PROTO)].
Proof.
  intros H OV. destruct (resource_step_of _ _ _ _ _ _ _ _ H) as (s & s' & n & R & I & CN & E & HC & PT). unfold resource_step in E. destruct (cached (fst t) (s_cache s)) as [e|] eqn:C; [|injection E as _ <-; apply PT].
  exfalso. destruct (cached_given s h (fst t) R) as (h1 & c1 & ok & k1 & t1 & e1 & h2 & X & Y & Z0); [congruence|]. destruct (OV h1 c1 ok k1 t1 e1 h2 X Y) as [ev' J]. now apply Z0 in J.
Qed.
(* ---- what a request asks for ---- *)
Lemma request_asks h c on q ev : happens (h ++ [(External c on (XRequest q), ev)]) ->
  exists e, ev = asks_lookup on c q :: e /\ (e = [] \/ exists g, gtrid (q_trid q) = Some g /\ e = [Branch c (q_corr q) g]) /\
    (forall g, gtrid (q_trid q) = Some g -> over g h -> e = [Branch c (q_corr q) g]) /\
    (forall g c', unique h -> honest h -> gtrid (q_trid q) = Some g -> uses g c' h -> open c' h -> e = []).
Proof.
  intro H. apply happens_snoc in H as (s & s' & R & P & E & R'). cbn in P, E. destruct (by_ipc_in _ _ P) as [n BI]; rewrite BI in E; cbn in E. apply by_ipc_some in BI as [I CN]. pose proof (reach_inv s h R) as IV.
  destruct (request_done _ _ _ _ _ _ (i_sock _ _ IV) I E) as (q' & w & l & e & T & _ & ->). rewrite CN. exists e. split; auto. destruct T as [T|g b x T G|g b T G]; rewrite T; cbn.
  - split; auto. split; discriminate.
  - split; auto. split; [|auto]. intros g0 X OV. injection X as <-. exfalso. destruct (cached_given s h g R) as (h1 & c1 & ok & k1 & t1 & e1 & h2 & X & Y & Z0); [congruence|]. destruct (OV h1 c1 ok k1 t1 e1 h2 X Y) as [ev' J]. now apply Z0 in J.
  - rewrite (handle_conn _ _ (i_sock _ _ IV) I), CN. split; [|split].
    + right. eauto.
    + intros g0 X _. now injection X as <-.
    + intros g0 c' U HO X (k1 & BK & p & q'' & FW & QC) OP. injection X as <-. exfalso. destruct (open_conn s h c' R OP) as [m [M1 M2]]. destruct (reach_book s h R U HO g c' k1 m BK M1 M2) as [BF _]. destruct (BF (forwards_in _ _ _ _ _ FW QC)) as (x & C & _). congruence.
Qed.

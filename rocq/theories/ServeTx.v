From Coq Require Import ZArith List Bool Lia Permutation RelationClasses.
From Verif Require Import CodesModel CtxModel CtxSpec CtxProofs CtxXa CtxMore CallModel CallSpec CallProofs CallTied CallTx ServeModel ServeSpec ServeProofs.
Import ListNotations.
Local Open Scope Z_scope.

(* ---------------------------------------------------------------- what happens to the transaction context in the routine *)
Definition user_call (i : call) : Prop := match i with Join _ | Start | Branch _ | Finalize _ => False | _ => True end.
Section Closed.
  Variables (e : env) (P : ctx -> ctx -> Prop).
  Hypothesis Prefl : forall c, P c c.
  Hypothesis Ptrans : forall a b c, P a b -> P b c -> P a c.
  Hypothesis Pstep : forall i c, user_call i -> empty_ok c -> P c (fst (step e i c)).
  Hypothesis Psuspend : forall c, empty_ok c -> P c (fst (sync_suspend e c)).
  Hypothesis Presume : forall c, empty_ok c -> P c (sync_resume e c).
  Definition Q (c c' : ctx) : Prop := P c c' /\ empty_ok c'.
  Lemma q_step i c : user_call i -> empty_ok c -> Q c (fst (step e i c)).
  Proof. intros U EO. split; [exact (Pstep i c U EO)|exact (step_empty e i c EO)]. Qed.
  Lemma q_refl c : empty_ok c -> Q c c. Proof. intros EO. split; [apply Prefl|exact EO]. Qed.
  Lemma q_trans a b c : Q a b -> Q b c -> Q a c. Proof. intros (A & _) (B & E). split; [exact (Ptrans _ _ _ A B)|exact E]. Qed.
  Lemma q_acall nt nr l s s' o ev : empty_ok (p_tx s) -> acall e nt nr l s = (s', o, ev) -> Q (p_tx s) (p_tx s').
  Proof.
    intros EO. unfold acall. destruct (_ && nr); [intros [= <- _ _]; apply q_refl, EO|]. destruct l as [send| | |]; try (intros [= <- _ _]; apply q_refl, EO).
    destruct nr; [destruct send; intros [= <- _ _]; apply q_refl, EO|]. destruct (reserve _ _ _) as [ds d]. destruct (in_transaction s && negb nt).
    - destruct send; intros [= <- _ _]; apply (q_step (ServiceCall (p_next s)) (p_tx s) I EO).
    - destruct send; intros [= <- _ _]; apply q_refl, EO.
  Qed.
  Lemma q_get d any nb sg s s' o ev : empty_ok (p_tx s) -> get_reply e d any nb sg s = (s', o, ev) -> Q (p_tx s) (p_tx s').
  Proof.
    intros EO. unfold get_reply, nothing, complete. destruct any.
    - destruct (p_cache s) as [|[c r] l]; [intros [= <- _ _]; apply q_refl, EO|]. destruct (get_corr _ _) as [x|]; [|intros [= <- _ _]; apply q_refl, EO]. intros [= <- _ _]. exact (q_step (Reply c (r_state r)) (p_tx s) I EO).
    - destruct (get d _) as [x|]; [|intros [= <- _ _]; apply q_refl, EO]. destruct (take _ _) as [[[c r] l]|]; [|intros [= <- _ _]; apply q_refl, EO]. intros [= <- _ _]. exact (q_step (Reply c (r_state r)) (p_tx s) I EO).
  Qed.
  Lemma arrivals_tx l : forall s, p_tx (fold_left (fun s x => arrive (fst x) (snd x) s) l s) = p_tx s.
  Proof. induction l as [|x l IH]; intros s; [reflexivity|]. cbn [fold_left]. rewrite IH. unfold arrive. destruct (mem _ _); reflexivity. Qed.
  Lemma q_suspend c : empty_ok c -> Q c (fst (sync_suspend e c)).
  Proof. intros EO. destruct (sync_suspend e c) as [t1 ok] eqn:E. split; [pose proof (Psuspend c EO) as H; rewrite E in H; exact H|exact (proj2 (suspend_evolves e c t1 ok 0 EO E))]. Qed.
  Lemma q_resume c : empty_ok c -> Q c (sync_resume e c).
  Proof. intros EO. split; [exact (Presume c EO)|exact (proj2 (resume_evolves e c 0 EO))]. Qed.
  Lemma q_tpcall nt l arr s s' o ev : empty_ok (p_tx s) -> tpcall e nt l arr s = (s', o, ev) -> Q (p_tx s) (p_tx s').
  Proof.
    intros EO. unfold tpcall. set (su := in_transaction s && negb nt). destruct (if su then sync_suspend e (p_tx s) else (p_tx s, true)) as [t1 ok] eqn:SU.
    assert (Q1 : Q (p_tx s) t1). { destruct su; [pose proof (q_suspend (p_tx s) EO) as H; rewrite SU in H; exact H|injection SU as <- _; apply q_refl, EO]. }
    destruct ok; [|intros [= <- _ _]; exact Q1]. destruct (acall e nt false l (w_tx t1 s)) as [[s2 o2] ev2] eqn:A. pose proof (q_acall _ _ _ _ _ _ _ (proj2 Q1 : empty_ok (p_tx (w_tx t1 s))) A) as Q2. change (p_tx (w_tx t1 s)) with t1 in Q2.
    assert (LAST : forall s3, Q (p_tx s2) (p_tx s3) -> Q (p_tx s) (p_tx (if su then w_tx (sync_resume e (p_tx s3)) s3 else s3))).
    { intros s3 Q3. pose proof (q_trans _ _ _ Q1 (q_trans _ _ _ Q2 Q3)) as Q4. destruct su; [|exact Q4]. cbn [p_tx w_tx]. exact (q_trans _ _ _ Q4 (q_resume _ (proj2 Q4))). }
    assert (D : (exists d, o2 = O_descriptor d) \/ (forall d, o2 <> O_descriptor d)) by (destruct o2; eauto; right; discriminate). destruct D as [(d & ->) | D].
    - destruct (get_reply e d false false true _) as [[s4 o4] ev4] eqn:G. intros H. injection H as <- _ _. apply LAST.
      assert (X : empty_ok (p_tx (fold_left (fun s x => arrive (fst x) (snd x) s) arr s2))) by (rewrite arrivals_tx; exact (proj2 Q2)). pose proof (q_get _ _ _ _ _ _ _ _ X G) as H. rewrite arrivals_tx in H. exact H.
    - intros H. assert (E : (if su then w_tx (sync_resume e (p_tx s2)) s2 else s2) = s') by (destruct o2; try (injection H as H _ _; exact H); exfalso; eapply D; reflexivity).
      rewrite <- E. apply LAST. apply q_refl. exact (proj2 Q2).
  Qed.
  Lemma q_xstep i s s' o ev : user_input i -> empty_ok (p_tx s) -> xstep e i s = (s', o, ev) -> Q (p_tx s) (p_tx s').
  Proof.
    intros U EO. destruct i as [nt nr l|d any nb sg|d|nt l arr|c r|i]; cbn [xstep].
    - apply q_acall, EO.
    - unfold getrply. destruct (get_reply _ _ _ _ _ _) as [[s1 o1] ev1] eqn:G. intros [= <- _ _]. exact (q_get _ _ _ _ _ _ _ _ EO G).
    - unfold cancel. destruct (get d _) as [x|]; [|intros [= <- _ _]; apply q_refl, EO]. destruct (associated _ _); [intros [= <- _ _]; apply q_refl, EO|]. intros [= <- _ _]. cbn. rewrite (proj1 (discard_same _ _)). apply q_refl, EO.
    - apply q_tpcall, EO.
    - intros [= <- _ _]. unfold arrive. destruct (mem _ _); apply q_refl, EO.
    - assert (G : forall i, user_call i -> Q (p_tx s) (fst (step e i (p_tx s)))) by (intros j J; exact (q_step j (p_tx s) J EO)).
      destruct i; cbn in U; try contradiction; try (intros [= <- _ _]; apply q_refl, EO);
        match goal with |- context [step e ?j (p_tx s)] => pose proof (G j I) as H; destruct (step e j (p_tx s)) as [t r0]; intros [= <- _ _]; exact H end.
  Qed.
  Lemma q_xrun us : forall s s' h, Forall user_input us -> empty_ok (p_tx s) -> xrun e us s = (s', h) -> Q (p_tx s) (p_tx s').
  Proof.
    induction us as [|i us IH]; intros s s' h F EO; cbn [xrun]; [intros [= <- _]; apply q_refl, EO|]. destruct (xstep e i s) as [[s1 o] ev] eqn:X. destruct (xrun e us s1) as [s2 h2] eqn:R. intros [= <- _].
    inversion F; subst. pose proof (q_xstep i s s1 o ev ltac:(assumption) EO X) as Q1. exact (q_trans _ _ _ Q1 (IH s1 s2 h2 ltac:(assumption) (proj2 Q1) R)).
  Qed.
End Closed.

(* ---------------------------------------------------------------- the transactions of others stay *)
Definition theirs (t : txn) : bool := negb (is_null (t_id t)) && negb (owned t).
Definition foreign (c : ctx) : list tid := map t_id (filter theirs (c_txs c)).
Definition same_foreign (c c' : ctx) : Prop := Permutation (foreign c) (foreign c').
#[local] Instance same_foreign_refl : Reflexive same_foreign. Proof. intros c. apply Permutation_refl. Qed.
Lemma theirs_id t u : t_id t = t_id u -> theirs t = theirs u. Proof. unfold theirs, owned. intros ->. reflexivity. Qed.
Lemma foreign_app a b : map t_id (filter theirs (a ++ b)) = map t_id (filter theirs a) ++ map t_id (filter theirs b). Proof. rewrite filter_app, map_app. reflexivity. Qed.
Lemma foreign_one t u : t_id t = t_id u -> map t_id (filter theirs [t]) = map t_id (filter theirs [u]). Proof. intros H. cbn. rewrite (theirs_id t u H). destruct (theirs u); cbn; congruence. Qed.
Lemma set_current_foreign t c : t_id t = t_id (current c) -> same_foreign c (set_current t c).
Proof.
  unfold same_foreign, foreign, set_current, current. destruct (split_last (c_txs c)) as [[l u]|] eqn:S; [|reflexivity]. apply split_last_some in S. destruct (t_susp u); [reflexivity|]. intros H. cbn [c_txs w_txs]. rewrite S, !foreign_app, (foreign_one t u H). reflexivity.
Qed.
Lemma begin_foreign e c c' k : begin e c = (c', k) -> same_foreign c c'.
Proof.
  intros H. apply begin_spec in H. destruct H as [[_ (evs & ->)] | [_ (evs & fx & n & -> & LN)]]; unfold same_foreign, foreign; cbn; [|reflexivity]. rewrite foreign_app. cbn. unfold theirs, owned. cbn. destruct (is_null _); cbn; rewrite app_nil_r; reflexivity.
Qed.
Lemma continuation_foreign e code c c' k : empty_ok c -> continuation e code c = (c', k) -> same_foreign c c'.
Proof.
  intros EO H. apply (continuation_spec e code c c' k EO) in H. destruct (c_ctl c).
  - destruct H as [-> _]. reflexivity.
  - destruct H as (k' & H & _). exact (begin_foreign _ _ _ _ H).
  - destruct H as [(_ & -> & _) | (l & t & evs & E & _ & _ & -> & _)]; [reflexivity|]. unfold same_foreign, foreign. cbn [c_txs w_txs grow]. rewrite E, !foreign_app. rewrite (foreign_one t (involve (all c) t) eq_refl). reflexivity.
Qed.
Lemma owned_last c : empty_ok c -> (x_own (t_id (current c)) =? me) = true -> negb (is_null (t_id (current c))) = true -> forall l t, c_txs c = l ++ [t] -> split_last (c_txs c) = Some (l, t) -> same_foreign c (w_txs l c).
Proof.
  intros EO O N l t S SL. apply negb_true_iff in N. assert (NZ : x_id (t_id (current c)) <> 0) by (intros Z0; apply is_null_spec in Z0; congruence).
  destruct (current_real c EO NZ) as (l' & E & _ & SL'). rewrite SL in SL'. injection SL' as <- T. unfold same_foreign, foreign. cbn [c_txs w_txs]. rewrite S, foreign_app. cbn. unfold theirs, owned. rewrite T, O. cbn. rewrite andb_false_r. cbn. rewrite app_nil_r. reflexivity.
Qed.
Lemma same_trans a b c : same_foreign a b -> same_foreign b c -> same_foreign a c. Proof. apply Permutation_trans. Qed.
Lemma update_first_foreign corr s l : map t_id (filter theirs (update_first corr s l)) = map t_id (filter theirs l).
Proof.
  induction l as [|t l IH]; [reflexivity|]. cbn [update_first]. destruct (mem corr (t_pend t)).
  - cbn [filter]. rewrite (theirs_id (replied corr (if t_state t <? s then w_state s t else t)) t) by (destruct (t_state t <? s); reflexivity). destruct (theirs t); cbn; [|reflexivity]. destruct (t_state t <? s); reflexivity.
  - cbn [filter]. destruct (theirs t); cbn; congruence.
Qed.
Lemma step_foreign e i c : user_call i -> empty_ok c -> same_foreign c (fst (step e i c)).
Proof.
  intros U EO. destruct i; cbn in U; try contradiction; cbn [step]; unfold tx_result; cbn [fst]; try reflexivity.
  - destruct (begin e c) as [c' k] eqn:E. exact (begin_foreign _ _ _ _ E).
  - unfold commit. destruct (may_commit (current c)) eqn:M; [|reflexivity]. destruct (split_last (c_txs c)) as [[l t]|] eqn:S; [|reflexivity]. pose proof S as S'. apply split_last_some in S.
    destruct (commit_tx e t (w_txs l c)) as [c1 code] eqn:E. apply commit_tx_grow in E. destruct E as (evs & -> & _). destruct (continuation e code _) as [c' k] eqn:E2. cbn [fst].
    unfold may_commit in M. apply andb_prop in M. destruct M as (M & _). apply andb_prop in M. destruct M as (M & _). apply andb_prop in M. destruct M as (M1 & M2).
    apply (same_trans c (w_txs l c)); [exact (owned_last c EO M2 M1 l t S S')|]. exact (continuation_foreign e code (grow evs (w_txs l c)) c' k EO E2).
  - unfold rollback. destruct (may_rollback (current c)) eqn:M; [|reflexivity]. destruct (split_last (c_txs c)) as [[l t]|] eqn:S; [|reflexivity]. pose proof S as S'. apply split_last_some in S.
    destruct (rollback_tx e t (w_txs l c)) as [c1 code] eqn:E. apply rollback_tx_grow in E. destruct E as (evs & -> & _). destruct (continuation e code _) as [c' k] eqn:E2. cbn [fst].
    unfold may_rollback in M. apply andb_prop in M. destruct M as (M1 & M2).
    apply (same_trans c (w_txs l c)); [exact (owned_last c EO M2 M1 l t S S')|]. exact (continuation_foreign e code (grow evs (w_txs l c)) c' k EO E2).
  - unfold suspend. destruct (negb given); [reflexivity|]. destruct (is_null (t_id (current c))); [reflexivity|]. destruct (end_all e EndSuspend _ _) as [c1 code] eqn:E. apply end_all_grow in E. destruct E as (evs & -> & _).
    assert (X : same_foreign c (grow evs (set_current (w_susp true (current c)) c))) by (apply (set_current_foreign (w_susp true (current c)) c); reflexivity). destruct (tx_eqb code tx_ok); exact X.
  - unfold resume. destruct x as [y|]; [|reflexivity]. destruct (y =? 0); [reflexivity|]. destruct (negb _ && negb _); [reflexivity|]. destruct (t_dyn (current c)); [|reflexivity].
    destruct (split_at y (c_txs c)) as [[[a t] b]|] eqn:S; [|reflexivity]. apply split_at_some in S. destruct S as (S & _ & _). destruct (negb (t_susp t)); [reflexivity|].
    destruct (start_these _ _ _ _ _) as [[c1 t1] code] eqn:E. apply start_these_grow in E. destruct E as [(evs & -> & _) ->].
    assert (K : map t_id (filter theirs [involve (c_fixed c) (w_susp false t)]) = map t_id (filter theirs [t])) by (apply foreign_one; reflexivity).
    unfold same_foreign, foreign. destruct (tx_eqb code tx_ok); cbn [fst c_txs w_txs grow].
    + rewrite S. change (a ++ t :: b) with (a ++ [t] ++ b). rewrite !foreign_app, K. rewrite (app_assoc (map t_id (filter theirs a))). apply Permutation_app_comm.
    + rewrite S. change (a ++ t :: b) with (a ++ [t] ++ b). change (a ++ involve (c_fixed c) (w_susp false t) :: b) with (a ++ [involve (c_fixed c) (w_susp false t)] ++ b). rewrite !foreign_app, K. reflexivity.
  - apply Permutation_refl.
  - apply Permutation_refl.
  - destruct (is_null _); [reflexivity|]. apply set_current_foreign. reflexivity.
  - unfold same_foreign, foreign. cbn [c_txs w_txs]. rewrite update_first_foreign. reflexivity.
  - destruct (is_null _); [reflexivity|]. apply set_current_foreign. reflexivity.
  - unfold register. destruct (negb _); [reflexivity|]. destruct (mem r _); [reflexivity|]. destruct (is_null _); [apply set_current_foreign; reflexivity|]. destruct (mem r _); [apply set_current_foreign; reflexivity|].
    destruct (local _); cbn [fst]; [apply set_current_foreign; reflexivity|].
    match goal with |- same_foreign c (set_current ?t ?d) => exact (set_current_foreign t d eq_refl) end.
  - unfold unregister. destruct (negb _); [reflexivity|]. destruct (mem r _); [apply set_current_foreign; reflexivity|reflexivity].
Qed.
Lemma suspend_foreign e c : same_foreign c (fst (sync_suspend e c)).
Proof.
  unfold sync_suspend. set (c0 := match t_inv (current c) with [] => c | _ => _ end). assert (T : c_txs c0 = c_txs c) by (unfold c0; destruct (t_inv (current c)); reflexivity).
  destruct (end_all e EndSuspend _ c0) as [t1 code] eqn:E. apply end_all_grow in E. destruct E as (evs & -> & _). unfold same_foreign, foreign. cbn. rewrite T. reflexivity.
Qed.
Lemma resume_foreign e c : same_foreign c (sync_resume e c).
Proof. unfold sync_resume. destruct (start_these _ _ _ _ _) as [[c1 u] code] eqn:E. apply start_these_grow in E. destruct E as [(evs & -> & _) ->]. apply (set_current_foreign (involve (c_fixed c) (current c)) (grow evs c)). reflexivity. Qed.
Lemma routine_foreign e us s s' h : Forall user_input us -> empty_ok (p_tx s) -> xrun e us s = (s', h) -> same_foreign (p_tx s) (p_tx s') /\ empty_ok (p_tx s').
Proof.
  apply (q_xrun e same_foreign); [intros c; apply Permutation_refl|apply same_trans|apply step_foreign|intros c _; apply suspend_foreign|intros c _; apply resume_foreign].
Qed.

From Coq Require Import ZArith List Bool Lia Permutation.
From Verif Require Import CodesModel CtxModel CtxSpec CtxProofs CtxXa CtxMore CallModel CallSpec CallProofs CallMore CallMain CallTied.
Import ListNotations.
Local Open Scope Z_scope.

Definition is_open (x k d : Z) (o : list (Z * Z)) (s : proc) : Prop := In (d, k) o /\ tied x k (p_tx s) /\ only x k (p_tx s).
Definition call_state (x k d : Z) (o : list (Z * Z)) (v : list CallModel.event) (s : proc) : Prop :=
  (is_open x k d o s /\ taken k v = []) \/ doomed x (p_tx s) \/ exists r, In (Took k r) v /\ r_state r <= 0.
Record tinv (x : Z) (o : list (Z * Z)) (v : list CallModel.event) (s : proc) : Prop := {
  ti_empty : empty_ok (p_tx s);
  ti_once : once x (p_tx s);
  ti_bound : forall t k, In t (c_txs (p_tx s)) -> In k (t_pend t) -> k < p_next s;
  ti_pos : forall t, In t (c_txs (p_tx s)) -> active <= t_state t;
  ti_calls : forall k d, In (Request k d x) v -> call_state x k d o v s }.

Lemma tinv_start x d f : tinv x [] [] (CallModel.start d f).
Proof. split; cbn; try tauto; [split; reflexivity|]. split; cbn; [lia|reflexivity]. Qed.

(* the transactions evolve, in no way that has to do with calls *)
Definition inner (i : call) : Prop := match i with ServiceCall _ | Reply _ _ => False | _ => True end.
Lemma evolve_bound i x c c' n : evolve i x c c' -> (forall k, i <> ServiceCall k \/ k < n) -> (forall t k, In t (c_txs c) -> In k (t_pend t) -> k < n) -> forall t k, In t (c_txs c') -> In k (t_pend t) -> k < n.
Proof.
  intros V N B t k I J. destruct (evolve_in _ _ _ _ t V I) as [(u & Iu & K) | ((E & _) & _)]; [|rewrite E in J; destruct J].
  destruct (k_adds _ _ _ K k J) as [Y | Y]; [exact (B u k Iu Y)|]. destruct (N k); [contradiction|assumption].
Qed.
Lemma evolve_pos i x c c' : evolve i x c c' -> (forall t, In t (c_txs c) -> active <= t_state t) -> forall t, In t (c_txs c') -> active <= t_state t.
Proof.
  intros V B t I. destruct (evolve_in _ _ _ _ t V I) as [(u & Iu & K) | ((_ & E) & _)]; [|rewrite E; unfold active; lia]. pose proof (k_state _ _ _ K). pose proof (B u Iu). lia.
Qed.
Lemma tinv_evolve x o v s i t : inner i -> tinv x o v s -> evolve i x (p_tx s) t -> empty_ok t -> tinv x o v (w_tx t s).
Proof.
  intros IN [A B C D E] V EO. assert (NS : forall k, i <> ServiceCall k) by (intros k ->; exact IN). assert (NL : forall k, ~ lost i k) by (intros k; destruct i; cbn in *; tauto). split; cbn [p_tx w_tx].
  - exact EO.
  - exact (once_evolve _ _ _ _ V B).
  - apply (evolve_bound i x (p_tx s)); auto.
  - apply (evolve_pos i x (p_tx s)); auto.
  - intros k d J. destruct (E k d J) as [((H1 & H2 & H3) & H4) | [H | H]].
    + left. split; [|exact H4]. split; [exact H1|]. split; [exact (tied_evolve _ _ _ _ _ V (NL k) H2)|exact (only_evolve _ _ _ _ _ V (NS k) H3)].
    + right. left. exact (doomed_evolve _ _ _ _ V H).
    + right. right. exact H.
Qed.
Lemma tinv_step e x o v s i : inner i -> x <> 0 -> not_joined x i -> tinv x o v s -> tinv x o v (w_tx (fst (step e i (p_tx s))) s).
Proof. intros IN NZ NJ T. apply (tinv_evolve x o v s i); auto; [apply step_evolves; auto; exact (ti_empty _ _ _ _ T)|apply step_empty; exact (ti_empty _ _ _ _ T)]. Qed.

(* neither the transactions nor the calls change *)
Lemma tinv_quiet x o v v' s s' : p_tx s' = p_tx s -> p_next s <= p_next s' -> (forall k d, ~ In (Request k d x) v') -> (forall k, taken k v' = []) -> tinv x o v s -> tinv x o (v ++ v') s'.
Proof.
  intros ET EN NR NT [A B C D E]. split; rewrite ?ET; auto.
  - intros t k I J. specialize (C t k I J). lia.
  - intros k d J. apply in_app_iff in J. destruct J as [J | J]; [|destruct (NR k d J)]. unfold call_state, is_open. rewrite ET, taken_app, NT, app_nil_r. destruct (E k d J) as [H | [H | (r & H & L)]]; [left; exact H|right; left; exact H|]. right. right. exists r. split; [apply in_app_iff; left; exact H|exact L].
Qed.
Lemma tinv_arrivals x o v arr s : tinv x o v s -> tinv x o (v ++ map (fun x => Arrived (fst x) (snd x)) arr) (fold_left (fun s x => arrive (fst x) (snd x) s) arr s).
Proof.
  intros T. assert (G : forall l s, p_tx (fold_left (fun s (x : Z * reply) => arrive (fst x) (snd x) s) l s) = p_tx s /\ p_next (fold_left (fun s (x : Z * reply) => arrive (fst x) (snd x) s) l s) = p_next s).
  { induction l as [|y l IH]; intros s0; cbn; [auto|]. destruct (IH (arrive (fst y) (snd y) s0)) as (-> & ->). unfold arrive. destruct (mem _ _); auto. }
  destruct (G arr s) as (G1 & G2). apply (tinv_quiet x o v _ s); auto; [lia| |].
  - intros k d J. apply in_map_iff in J. destruct J as (y & Y & _). discriminate.
  - intros k. clear. induction arr; [reflexivity|exact IHarr].
Qed.
Lemma discards_same l : forall s, p_tx (fold_left (fun s c => discard c s) l s) = p_tx s /\ p_next (fold_left (fun s c => discard c s) l s) = p_next s.
Proof. induction l as [|y l IH]; intros s0; cbn; [auto|]. destruct (IH (discard y s0)) as (-> & ->). unfold discard. destruct (take _ _) as [[? ?]|]; [auto|]. destruct (mem _ _); auto. Qed.

(* tpacall *)
Lemma tinv_acall e nt nr l s s' out ev x o v : x <> 0 -> inv o v s -> hist o v s -> causal v -> tinv x o v s -> acall e nt nr l s = (s', out, ev) -> tinv x (fold_left after_event ev o) (v ++ ev) s'.
Proof.
  intros NZ I HI CA T. pose proof T as [A B C D E]. unfold acall. set (as' := in_transaction s && negb nt).
  assert (QL : forall c, (forall k d, ~ In (Request k d x) [Lookup c]) /\ forall k, taken k [Lookup c] = []) by (intros c; split; [intros k d [X | []]; discriminate|reflexivity]).
  destruct (as' && nr) eqn:NR; [intros H; injection H as <- <- <-; cbn; rewrite app_nil_r; exact T|].
  destruct l as [send| | |]; try (intros H; injection H as <- <- <-; cbn [fold_left after_event]; apply (tinv_quiet x o v _ s); auto; try apply QL; cbn; lia).
  destruct nr.
  - destruct send; intros H; injection H as <- <- <-; cbn [fold_left after_event Z.eqb]; apply (tinv_quiet x o v _ s); auto; try apply QL; try (cbn; lia).
    intros k d [X | [X | []]]; [discriminate|]. injection X as _ _ X. congruence.
  - destruct (reserve (p_next s) 0 (p_descs s)) as [ds d] eqn:R. cbn [p_tx w_descs w_corr].
    set (t := if as' then fst (step e (ServiceCall (p_next s)) (p_tx s)) else p_tx s).
    assert (TX : (if as' then w_tx (fst (step e (ServiceCall (p_next s)) (p_tx s))) (w_descs ds (w_corr (p_next s + 1) s)) else w_descs ds (w_corr (p_next s + 1) s)) =
      mk_proc ds (p_cache s) (p_disc s) (p_next s + 1) t) by (unfold t; destruct as'; reflexivity).
    rewrite TX. clear TX.
    assert (V : evolve (ServiceCall (p_next s)) x (p_tx s) t) by (unfold t; destruct as'; [apply (step_evolves e (ServiceCall (p_next s))); auto; exact Logic.I|apply evolve_refl]).
    assert (EO : empty_ok t) by (unfold t; destruct as'; [apply step_empty|]; exact A).
    (* whatever was *)
    assert (OLD : forall o' v' s', p_tx s' = t -> p_next s' = p_next s + 1 -> (forall z, In z o -> In z o') -> (forall k, taken k v' = []) -> (forall k dd, In (Request k dd x) v' -> call_state x k dd o' (v ++ v') s') -> tinv x o' (v ++ v') s').
    { intros o' v' s1 ET EN OO NT NEW. split; rewrite ?ET, ?EN.
      - exact EO.
      - exact (once_evolve _ _ _ _ V B).
      - apply (evolve_bound _ x (p_tx s) t (p_next s + 1) V); [intros k; destruct (Z.eq_dec k (p_next s)); [right; lia|left; congruence]|]. intros u k I1 I2. specialize (C u k I1 I2). lia.
      - exact (evolve_pos _ _ _ _ V D).
      - intros k dd J. apply in_app_iff in J. destruct J as [J | J]; [|exact (NEW k dd J)]. pose proof (h_req _ _ _ HI _ _ _ J) as LT. unfold call_state, is_open. rewrite ET, taken_app, NT, app_nil_r.
        destruct (E k dd J) as [((H1 & H2 & H3) & H4) | [H | (r & H & L)]].
        + left. split; [|exact H4]. split; [apply OO; exact H1|]. split; [apply (tied_evolve _ _ _ _ _ V); [cbn; tauto|exact H2]|apply (only_evolve _ _ _ _ _ V); [intros X; injection X as X; lia|exact H3]].
        + right. left. exact (doomed_evolve _ _ _ _ V H).
        + right. right. exists r. split; [apply in_app_iff; left; exact H|exact L]. }
    destruct send as [code|]; intros H; injection H as <- <- <-.
    + cbn [fold_left after_event]. apply OLD; auto. intros k dd [X | []]; discriminate.
    + cbn [fold_left after_event]. set (y := if as' then _ else _). destruct (inv_reserve o v [] s d ds (p_tx s) ltac:(cbn; tauto) R I) as (Pd & Nd & _).
      apply OLD; auto; [intros z Iz; destruct (d =? 0); [exact Iz|apply in_app_iff; left; exact Iz]|].
      intros k dd [X | [X | []]]; [discriminate|]. injection X as <- <- Ey. left. split.
      * assert (AS : as' = true) by (unfold y in Ey; destruct as'; [reflexivity|congruence]). unfold y in Ey. rewrite AS in Ey. split; [destruct (Z.eqb_spec d 0); [lia|apply in_app_iff; right; left; reflexivity]|].
        unfold t. rewrite AS. cbn [p_tx]. apply call_ties; auto. intros u Iu Ju. specialize (C u _ Iu Ju). lia.
      * rewrite taken_app. cbn [taken flat_map]. rewrite app_nil_r. destruct (taken (p_next s) v) as [|r q] eqn:TK; [reflexivity|]. exfalso.
        assert (NE : taken (p_next s) v <> []) by congruence. destruct (inv_taken_some _ _ _ _ I NE) as (r' & AR). destruct (causal_request _ _ _ CA AR) as (d2 & x2 & _ & J2). pose proof (h_req _ _ _ HI _ _ _ J2). lia.
Qed.

(* tpgetrply *)
Lemma tinv_get e d any nb sg s s' out ev x o v : x <> 0 -> inv o v s -> tinv x o v s -> get_reply e d any nb sg s = (s', out, ev) -> tinv x (fold_left after_event ev o) (v ++ ev) s'.
Proof.
  intros NZ I T H. apply (get_reply_outcome _ _ _ _ _ _ _ _ _ _ _ I) in H. destruct H as [_ _ -> _ -> | _ -> _ -> | c r l _ _ NO -> _ -> | d' c r q l _ J _ _ -> ->].
  - cbn. rewrite app_nil_r. exact T.
  - cbn. rewrite app_nil_r. exact T.
  - cbn [fold_left after_event]. destruct T as [A B C D E]. split; auto. intros k dd J. apply in_app_iff in J. destruct J as [J | [J | []]]; [|discriminate]. unfold call_state, is_open. change (p_tx (w_cache l s)) with (p_tx s).
    destruct (E k dd J) as [((H1 & H2) & H4) | [H | (r' & H & L)]].
    + left. assert (NE : k <> c) by (intros ->; exact (NO _ H1)). split; [split; [|exact H2]|].
      * apply filter_In. split; [exact H1|]. cbn. apply negb_true_iff, Z.eqb_neq. exact NE.
      * rewrite taken_app, H4. cbn. destruct (Z.eqb_spec c k); [congruence|reflexivity].
    + right. left. exact H.
    + right. right. exists r'. split; [apply in_app_iff; left; exact H|exact L].
  - cbn [fold_left after_event]. pose proof T as [A B C D E]. assert (V : evolve (Reply c (r_state r)) x (p_tx s) (fst (step e (Reply c (r_state r)) (p_tx s)))) by (apply step_evolves; auto; exact Logic.I).
    split; cbn [p_tx w_descs w_tx p_next w_cache].
    + apply (step_empty e (Reply c (r_state r))). exact A.
    + exact (once_evolve _ _ _ _ V B).
    + apply (evolve_bound _ x (p_tx s) _ (p_next s) V); [left; discriminate|exact C].
    + exact (evolve_pos _ _ _ _ V D).
    + intros k dd Jk. apply in_app_iff in Jk. destruct Jk as [Jk | [Jk | []]]; [|discriminate]. destruct (E k dd Jk) as [((H1 & H2 & H3) & H4) | [H | (r' & H & L)]].
      * destruct (Z.eq_dec k c) as [-> | NE].
        -- destruct (Z_le_gt_dec (r_state r) 0) as [LE | GT]; [right; right; exists r; split; [apply in_app_iff; right; left; reflexivity|exact LE]|]. right. left. apply bad_reply_dooms; auto. unfold active. lia.
        -- left. split.
           ++ split; [apply filter_In; split; [exact H1|]; cbn; apply negb_true_iff, Z.eqb_neq; exact NE|]. split; [apply (tied_evolve _ _ _ _ _ V); [cbn; congruence|exact H2]|apply (only_evolve _ _ _ _ _ V); [discriminate|exact H3]].
           ++ rewrite taken_app, H4. cbn. destruct (Z.eqb_spec c k); [congruence|reflexivity].
      * right. left. exact (doomed_evolve _ _ _ _ V H).
      * right. right. exists r'. split; [apply in_app_iff; left; exact H|exact L].
Qed.

(* tpcancel *)
Lemma discard_same c s : p_tx (discard c s) = p_tx s /\ p_next (discard c s) = p_next s.
Proof. unfold discard. destruct (take _ _) as [[? ?]|]; [auto|]. destruct (mem _ _); auto. Qed.
Lemma tinv_cancel d s s' out ev x o v : inv o v s -> tinv x o v s -> cancel d s = (s', out, ev) -> tinv x (after_entry o (Tpcancel d, out, ev)) (v ++ ev) s'.
Proof.
  intros I T. unfold cancel. destruct (get d (p_descs s)) as [y|] eqn:G; [|intros H; injection H as <- <- <-; cbn; rewrite app_nil_r; exact T].
  destruct (associated (d_corr y) (p_tx s)) eqn:AS; [intros H; injection H as <- <- <-; cbn; rewrite app_nil_r; exact T|].
  intros H; injection H as <- <- <-. cbn [after_entry fold_left after_event]. destruct (discard_same (d_corr y) s) as (D1 & D2). destruct T as [A B C D E].
  split; cbn [p_tx w_descs p_next]; rewrite ?D1, ?D2; auto. intros k dd J. apply in_app_iff in J. destruct J as [J | [J | []]]; [|discriminate]. unfold call_state, is_open. cbn [p_tx w_descs]. rewrite D1, taken_app. cbn [taken flat_map]. rewrite app_nil_r.
  destruct (E k dd J) as [((H1 & H2 & H3) & H4) | [H | (r' & H & L)]].
  - destruct (Z.eq_dec dd d) as [-> | NE].
    + right. left. apply (proj1 (out_get _ _ _ _ _ I)) in H1. rewrite G in H1. injection H1 as ->. cbn in AS. destruct H2 as (L & TI). split; [exact L|]. intros t It Et. specialize (TI t It Et). pose proof (D t It) as P.
      destruct (Z.eq_dec (t_state t) active) as [Ea | Na]; [|lia]. exfalso. assert (X : associated k (p_tx s) = true) by (unfold associated; apply existsb_exists; exists t; split; [exact It|]; rewrite Ea; cbn; apply mem_spec; exact TI). congruence.
    + left. split; [|exact H4]. split; [apply filter_In; split; [exact H1|]; cbn; apply negb_true_iff, Z.eqb_neq; exact NE|auto].
  - right. left. exact H.
  - right. right. exists r'. split; [apply in_app_iff; left; exact H|exact L].
Qed.

(* tpcall *)
Lemma suspend_evolves e t t1 ok x : empty_ok t -> sync_suspend e t = (t1, ok) -> evolve Info x t t1 /\ empty_ok t1.
Proof.
  intros EO. unfold sync_suspend. set (t0 := match t_inv (current t) with [] => t | _ => _ end).
  assert (Y : c_next t0 = c_next t /\ c_txs t0 = c_txs t /\ empty_ok t0) by (unfold t0; destruct (t_inv (current t)); cbn; auto). destruct Y as (Y1 & Y2 & Y3).
  destruct (end_all e EndSuspend (current t) t0) as [t2 code] eqn:E. apply end_all_grow in E. destruct E as (evs & -> & _). intros H. injection H as <- _. split; [apply evolve_same; [cbn; lia|exact Y2]|exact Y3].
Qed.
Lemma resume_evolves e t x : empty_ok t -> evolve Info x t (sync_resume e t) /\ empty_ok (sync_resume e t).
Proof.
  intros EO. unfold sync_resume. destruct (start_these e StartResume (current t) (c_fixed t) t) as [[t1 u] code] eqn:E. apply start_these_grow in E. destruct E as [(evs & -> & _) ->].
  split; [exact (set_current_evolve Info x (grow evs t) (involve (c_fixed t) (current t)) (carried_inv Info (c_fixed t) (current t)))|]. apply set_current_empty; [exact EO|]. split; [reflexivity|]. reflexivity.
Qed.
Lemma tinv_tpcall e nt l arr s s' out ev x o v : x <> 0 -> inv o v s -> hist o v s -> causal (v ++ ev) -> tinv x o v s -> tpcall e nt l arr s = (s', out, ev) -> tinv x (fold_left after_event ev o) (v ++ ev) s'.
Proof.
  intros NZ I HI CA T. unfold tpcall. set (su := in_transaction s && negb nt). destruct (if su then sync_suspend e (p_tx s) else (p_tx s, true)) as [t1 ok] eqn:SU.
  assert (S1 : evolve Info x (p_tx s) t1 /\ empty_ok t1) by (destruct su; [exact (suspend_evolves e (p_tx s) t1 ok x (ti_empty _ _ _ _ T) SU)|injection SU as <- _; split; [apply evolve_refl|exact (ti_empty _ _ _ _ T)]]). destruct S1 as (V1 & EO1).
  pose proof (tinv_evolve x o v s Info t1 Logic.I T V1 EO1) as T1.
  destruct ok; [|intros H; injection H as <- <- <-; cbn; rewrite app_nil_r; exact T1].
  destruct (acall e nt false l (w_tx t1 s)) as [[s2 o2] ev2] eqn:AC.
  assert (LAST : forall o' v' s', tinv x o' v' s' -> tinv x o' v' (if su then w_tx (sync_resume e (p_tx s')) s' else s')).
  { intros o' v' s1 T'. destruct su; [|exact T']. destruct (resume_evolves e (p_tx s1) x (ti_empty _ _ _ _ T')) as (V2 & EO2). exact (tinv_evolve x o' v' s1 Info _ Logic.I T' V2 EO2). }
  pose proof (acall_inv _ _ _ _ _ _ _ _ _ _ (inv_tx _ _ _ t1 I) AC) as I2.
  assert (T2 : causal v -> tinv x (fold_left after_event ev2 o) (v ++ ev2) s2) by (intros CV; exact (tinv_acall e nt false l _ _ _ _ x o v NZ (inv_tx _ _ _ t1 I) (hist_tx _ _ _ t1 HI) CV T1 AC)).
  assert (D : (exists d, o2 = O_descriptor d) \/ (forall d, o2 <> O_descriptor d)) by (destruct o2; eauto; right; discriminate). destruct D as [(d & ->) | D].
  - destruct (get_reply e d false false true _) as [[s4 o4] ev4] eqn:G. intros H. injection H as <- <- <-. specialize (T2 (causal_app _ _ CA)).
    rewrite !fold_events_app, arrivals_quiet, !app_assoc. apply LAST. exact (tinv_get _ _ _ _ _ _ _ _ _ x _ _ NZ (arrivals_inv _ arr _ _ I2) (tinv_arrivals x _ _ arr _ T2) G).
  - intros H. assert (E : (if su then w_tx (sync_resume e (p_tx s2)) s2 else s2, o2, ev2 ++ []) = (s', out, ev)) by (destruct o2; try exact H; exfalso; eapply D; reflexivity).
    injection E as <- <- <-. rewrite app_nil_r in *. apply LAST. exact (T2 (causal_app _ _ CA)).
Qed.

Definition not_joined_in (x : Z) (i : input) : Prop := match i with Tx (Join t) => x_id t <> x | _ => True end.
Lemma tinv_xstep e i s s' out ev x o v : x <> 0 -> not_joined_in x i -> inv o v s -> hist o v s -> causal (v ++ ev) -> tinv x o v s -> xstep e i s = (s', out, ev) -> tinv x (after_entry o (i, out, ev)) (v ++ ev) s'.
Proof.
  intros NZ NJ I HI CA T H. destruct i as [nt nr l|d any nb sg|d|nt l arr|c r|i].
  - exact (tinv_acall e nt nr l s s' out ev x o v NZ I HI (causal_app _ _ CA) T H).
  - cbn [xstep] in H. rewrite getrply_plain in H. destruct (get_reply e d any nb sg s) as [[s1 o1] ev1] eqn:G. injection H as <- <- <-. exact (tinv_get e d any nb sg s s1 o1 ev1 x o v NZ I T G).
  - exact (tinv_cancel d s s' out ev x o v I T H).
  - exact (tinv_tpcall e nt l arr s s' out ev x o v NZ I HI CA T H).
  - cbn in H. injection H as <- <- <-. exact (tinv_arrivals x o v [(c, r)] s T).
  - assert (CA' : forall j, inner j -> not_joined x j -> forall t rr, step e j (p_tx s) = (t, rr) -> tinv x (after_entry o (Tx i, O_tx rr, [])) (v ++ []) (w_tx t s)).
    { intros j IN NJ' t rr E. cbn [after_entry fold_left]. rewrite app_nil_r. pose proof (tinv_step e x o v s j IN NZ NJ' T) as X. rewrite E in X. exact X. }
    destruct i;
      try (match type of H with xstep _ (Tx ?j) _ = _ => unfold xstep in H; destruct (step e j (p_tx s)) as [t0 rr] eqn:E; injection H as <- <- <-; refine (CA' j Logic.I _ t0 rr E); first [exact NJ | exact Logic.I] end);
      try (cbn in H; injection H as <- <- <-; cbn [after_entry fold_left]; rewrite app_nil_r; exact T).
    unfold xstep in H. destruct (discards_same (pending_of (p_tx s)) s) as (D1 & D2). rewrite D1 in H. destruct (step e (Finalize do_commit) (p_tx s)) as [t r] eqn:E. injection H as <- <- <-. cbn [after_entry]. rewrite discards_quiet.
    pose proof (tinv_step e x o v s (Finalize do_commit) Logic.I NZ Logic.I T) as X. rewrite E in X. cbn [fst] in X.
    refine (tinv_quiet x o v (map Discarded (pending_of (p_tx s))) (w_tx t s) (w_tx t (fold_left (fun s c => discard c s) (pending_of (p_tx s)) s)) _ _ _ _ X); cbn [p_tx w_tx p_next]; auto; [lia| |].
    + intros k d J. apply in_map_iff in J. destruct J as (y & Y & _). discriminate.
    + intros k. clear. induction (pending_of (p_tx s)); [reflexivity|exact IHl].
Qed.
Lemma run_tinv e x is : x <> 0 -> Forall (not_joined_in x) is -> forall s s' h o v, inv o v s -> hist o v s -> causal (v ++ events h) -> tinv x o v s -> xrun e is s = (s', h) -> tinv x (fold_left after_entry h o) (v ++ events h) s'.
Proof.
  intros NZ. induction is as [|i is IH]; intros F s s' h o v V I C T H; cbn in H.
  - injection H as <- <-. cbn. rewrite app_nil_r. exact T.
  - inversion_clear F as [|? ? Fi F']. destruct (xstep e i s) as [[s1 out] ev] eqn:ST. destruct (xrun e is s1) as [s2 h2] eqn:R. injection H as <- <-. cbn [events flat_map snd] in *. change (flat_map (fun n => snd n) h2) with (events h2) in *. rewrite app_assoc in *. cbn [fold_left].
    apply (IH F' s1 s2 h2); auto; [exact (step_inv e i s s1 out ev o v V ST)|exact (hist_step e i s s1 out ev o v V I ST)|]. exact (tinv_xstep e i s s1 out ev x o v NZ Fi V I (causal_app _ _ C) T ST).
Qed.
Lemma reach_tinv e dyn fix0 is s h x : xrun e is (CallModel.start dyn fix0) = (s, h) -> x <> 0 -> Forall (not_joined_in x) is -> causal (events h) -> tinv x (outstanding h) (events h) s.
Proof. intros R NZ F C. exact (run_tinv e x is NZ F _ _ _ [] [] (inv_start dyn fix0) (hist_start dyn fix0) C (tinv_start x dyn fix0) R). Qed.

Lemma pending_refuses e dyn fix0 is s h x k d : xrun e is (CallModel.start dyn fix0) = (s, h) -> x <> 0 -> Forall (not_joined_in x) is -> causal (events h) ->
  In (Request k d x) (events h) -> taken k (events h) = [] -> CallSpec.in_tx s = x -> xstep e (Tx Commit) s = (s, O_tx (RTx tx_protocol), []).
Proof.
  intros R NZ F C J NT IX. pose proof (reach_tinv _ _ _ _ _ _ _ R NZ F C) as T. cbn [xstep].
  assert (X : step e Commit (p_tx s) = (p_tx s, RTx tx_protocol)).
  { destruct (ti_calls _ _ _ _ T k d J) as [((_ & H2 & _) & _) | [H | (r & H & _)]].
    - exact (tied_refuses e x k (p_tx s) (ti_empty _ _ _ _ T) NZ IX H2).
    - exact (doomed_refuses e x (p_tx s) (ti_empty _ _ _ _ T) NZ IX H).
    - apply taken_in in H. rewrite NT in H. destruct H. }
  rewrite X. destruct s; reflexivity.
Qed.
Lemma bad_reply e dyn fix0 is s h x k d r : xrun e is (CallModel.start dyn fix0) = (s, h) -> x <> 0 -> Forall (not_joined_in x) is -> causal (events h) -> single (events h) ->
  In (Request k d x) (events h) -> In (Took k r) (events h) -> 0 < r_state r -> CallSpec.in_tx s = x -> xstep e (Tx Commit) s = (s, O_tx (RTx tx_protocol), []).
Proof.
  intros R NZ F C SI J TK RS IX. pose proof (reach_tinv _ _ _ _ _ _ _ R NZ F C) as T. cbn [xstep]. apply taken_in in TK.
  assert (X : step e Commit (p_tx s) = (p_tx s, RTx tx_protocol)).
  { destruct (ti_calls _ _ _ _ T k d J) as [(_ & NT) | [H | (r' & H & L)]].
    - rewrite NT in TK. destruct TK.
    - exact (doomed_refuses e x (p_tx s) (ti_empty _ _ _ _ T) NZ IX H).
    - exfalso. apply taken_in in H. destruct (i_device _ _ _ (reach_inv _ _ _ _ _ _ R) k) as (S0 & _). apply sub_length in S0. rewrite app_length in S0. specialize (SI k).
      destruct (taken k (events h)) as [|a [|b q]]; [destruct H| |cbn in S0; lia]. destruct H as [<- | []]. destruct TK as [<- | []]. lia. }
  rewrite X. destruct s; reflexivity.
Qed.

From Coq Require Import ZArith List Bool Lia Permutation.
From Verif Require Import CodesModel CtxModel CtxSpec CtxProofs.
Import ListNotations.
Local Open Scope Z_scope.

Lemma tx_eqb_eq a b : tx_eqb a b = true <-> a = b.
Proof. split; [|intros ->; apply Z.eqb_refl]. unfold tx_eqb. rewrite Z.eqb_eq. destruct a, b; cbn; intros H; congruence || reflexivity. Qed.

Lemma removelast_snoc {A} (l : list A) x : removelast (l ++ [x]) = l.
Proof. rewrite removelast_app by discriminate. cbn. apply app_nil_r. Qed.

Lemma held_set_current t c : x_id (t_id t) = x_id (t_id (current c)) -> held (set_current t c) = held c.
Proof.
  intros X. unfold set_current, current in *. destruct (split_last (c_txs c)) as [[l u]|] eqn:E; [|reflexivity].
  apply split_last_some in E. destruct (t_susp u); [reflexivity|]. unfold held, w_txs; cbn. rewrite E, !map_app. cbn. rewrite X. reflexivity.
Qed.

Lemma begin_held e c c' k : begin e c = (c', k) -> exists new, held c' = held c ++ new /\ ((k = tx_ok /\ length new = 1%nat) \/ (k <> tx_ok /\ new = [])).
Proof.
  intros H. apply begin_spec in H. destruct H as [[-> (evs&->)]|[N (evs&fx&n&->&_)]].
  - eexists. split; [unfold held; cbn; rewrite map_app; reflexivity|left; auto].
  - exists []. split; [rewrite app_nil_r; reflexivity|right; auto].
Qed.

Lemma continuation_held e code c c' k : empty_ok c -> continuation e code c = (c', k) ->
  exists new, held c' = held c ++ new /\ (new = [] \/ c_ctl c = Chained /\ length new = 1%nat).
Proof.
  intros EO H. apply (continuation_spec e code c c' k EO) in H. destruct (c_ctl c) eqn:CT.
  - destruct H as [-> _]. exists []. rewrite app_nil_r. auto.
  - destruct H as (k'&H&_). apply begin_held in H. destruct H as (new&->&[[_ L]|[_ ->]]); eexists; (split; [reflexivity|]); auto.
  - exists []. rewrite app_nil_r. split; [|auto]. destruct H as [(_&->&_)|(l&t&evs&E&_&_&->&_)]; [reflexivity|]. unfold held; cbn. rewrite E, !map_app. reflexivity.
Qed.

Lemma step_accounted e i c : empty_ok c -> accounted i c (fst (step e i c)).
Proof.
  intros EO. destruct i; cbn [step accounted tx_result fst].
  - destruct (begin e c) as [c' k] eqn:E. apply begin_held in E. destruct E as (new&H&X). exists new. split; [exact H|]. destruct X as [[_ L]|[_ ->]]; cbn; lia.
  - split.
    + intros t C. apply (committable_current c t EO) in C. destruct C as [M ->]. pose proof (proj1 (may_commit_spec _) M) as (N&_).
      destruct (current_real c EO N) as (l&E&S&_). rewrite (commit_accepted e c (current c) l E S M).
      destruct (commit_tx e (current c) (w_txs l c)) as [c1 code] eqn:CT. apply commit_tx_grow in CT. destruct CT as (evs&->&_).
      destruct (continuation e code _) as [c' k] eqn:CO. apply (continuation_held e code (grow evs (w_txs l c)) c' k EO) in CO. destruct CO as (new&H&X).
      exists new. rewrite (held_app l (current c) c E), removelast_snoc. split; [reflexivity|]. split; [exact H|exact X].
    + intros N. destruct (may_commit (current c)) eqn:M; [destruct (N (current c)); apply committable_current; auto|]. rewrite (commit_refused e c M). reflexivity.
  - split.
    + intros t C. apply (rollbackable_current c t EO) in C. destruct C as [M ->]. pose proof (proj1 (may_rollback_spec _) M) as (N&_).
      destruct (current_real c EO N) as (l&E&S&_). rewrite (rollback_accepted e c (current c) l E S M).
      destruct (rollback_tx e (current c) (w_txs l c)) as [c1 code] eqn:CT. apply rollback_tx_grow in CT. destruct CT as (evs&->&_).
      destruct (continuation e code _) as [c' k] eqn:CO. apply (continuation_held e code (grow evs (w_txs l c)) c' k EO) in CO. destruct CO as (new&H&X).
      exists new. rewrite (held_app l (current c) c E), removelast_snoc. split; [reflexivity|]. split; [exact H|exact X].
    + intros N. destruct (may_rollback (current c)) eqn:M; [destruct (N (current c)); apply rollbackable_current; auto|]. rewrite (rollback_refused e c M). reflexivity.
  - unfold suspend. destruct (negb given); [reflexivity|]. destruct (is_null _); [reflexivity|]. destruct (end_all _ _ _ _) as [c1 code] eqn:E. apply end_all_grow in E. destruct E as (evs&->&_).
    assert (X : held (grow evs (set_current (w_susp true (current c)) c)) = held c) by (apply (held_set_current (w_susp true (current c)) c eq_refl)).
    destruct (tx_eqb code tx_ok); exact X.
  - assert (SAME : exists a b, held c = a ++ b /\ (held c = a ++ b \/ exists x a', a = a' ++ [x] /\ held c = b ++ a' ++ [x])) by (exists [], (held c); auto).
    unfold resume. destruct x as [x|]; [|exact SAME]. destruct (x =? 0); [exact SAME|]. destruct (negb _ && negb _); [exact SAME|]. destruct (t_dyn (current c)); [|exact SAME].
    destruct (split_at x (c_txs c)) as [[[a t] b]|] eqn:SA; [|exact SAME]. destruct (negb (t_susp t)); [exact SAME|].
    destruct (start_these _ _ _ _ _) as [[c1 t1] code] eqn:E. apply start_these_grow in E. destruct E as [(evs&->&_) ->]. apply split_at_some in SA. destruct SA as (EL&_&_).
    exists (map (fun t => x_id (t_id t)) a ++ [x_id (t_id t)]), (map (fun t => x_id (t_id t)) b).
    split; [unfold held; rewrite EL, map_app; cbn; rewrite <- app_assoc; reflexivity|].
    destruct (tx_eqb code tx_ok); cbn [fst]; [right|left].
    + eexists. eexists. split; [reflexivity|]. unfold held; cbn. rewrite !map_app. reflexivity.
    + unfold held; cbn. rewrite map_app, <- app_assoc. reflexivity.
  - reflexivity.
  - reflexivity.
  - reflexivity.
  - destruct (is_null _); [reflexivity|]. apply held_set_current. reflexivity.
  - cbn. unfold held, w_txs; cbn. apply update_first_ids.
  - destruct (is_null _); [reflexivity|]. apply held_set_current. reflexivity.
  - unfold register. destruct (negb _); [reflexivity|]. destruct (mem r _); [reflexivity|]. destruct (is_null _); [apply held_set_current; reflexivity|].
    destruct (mem r _); [apply held_set_current; reflexivity|]. destruct (local _); [apply held_set_current; reflexivity|].
    cbn [fst]. match goal with |- held (set_current ?t ?c') = _ => exact (held_set_current t c' eq_refl) end.
  - unfold unregister. destruct (negb _); [reflexivity|]. destruct (mem r _); [|reflexivity]. apply held_set_current. reflexivity.
  - unfold join. assert (L : forall (x : Z), (length [x] <= 1)%nat) by (intros; cbn; lia). destruct (is_null t).
    + eexists. split; [unfold held; cbn; rewrite map_app; reflexivity|apply L].
    + destruct (join_these _ _ _ _) as [[c1 t1] code] eqn:E. apply join_these_grow in E. destruct E as [(evs&->) ->]. eexists. split; [unfold held; cbn; rewrite map_app; reflexivity|apply L].
  - unfold start. destruct (start_these _ _ _ _ _) as [[c1 t1] code] eqn:E. apply start_these_grow in E. destruct E as [(evs&->&_) ->]. destruct (tx_eqb code tx_ok).
    + eexists. split; [unfold held; cbn; rewrite map_app; reflexivity|cbn; lia].
    + exists []. split; [rewrite app_nil_r; reflexivity|cbn; lia].
  - unfold branch. assert (L : forall (x : Z), (length [x] <= 1)%nat) by (intros; cbn; lia). destruct (is_null t).
    + eexists. split; [unfold held; cbn; rewrite map_app; reflexivity|apply L].
    + destruct (start_these _ _ _ _ _) as [[c1 t1] code] eqn:E. apply start_these_grow in E. destruct E as [(evs&->&_) ->].
      destruct (c_fixed c); (eexists; split; [unfold held; cbn; rewrite map_app; reflexivity|apply L]).
  - destruct (finalize e do_commit c) as [c1 s] eqn:E. apply finalize_grow in E. destruct E as (evs&->&_). reflexivity.
Qed.

(* ------------------------------------------------------------------ refusals *)

Lemma grow_same evs c : c_log (grow evs c) = c_log c -> evs = [].
Proof. cbn. intros H. rewrite <- (app_nil_r (c_log c)) in H at 2. exact (app_inv_head _ _ _ H). Qed.
Lemma over_quiet e op x rs ids : forall c, c_log (fst (over e op x ids rs tx_ok c)) = c_log c -> over e op x ids rs tx_ok c = (c, tx_ok).
Proof.
  induction ids as [|r q IH]; intros c; cbn; [reflexivity|]. destruct (mem r rs); [|exact (IH c)].
  destruct (over e op x q rs _ _) as [c' k] eqn:E. apply over_grow in E. destruct E as (evs&->&_). rewrite log_grow, grow_grow. cbn [fst]. intros H. apply grow_same in H. discriminate H.
Qed.
Lemma end_all_quiet e op t c : c_log (fst (end_all e op t c)) = c_log c -> end_all e op t c = (c, tx_ok).
Proof. unfold end_all. destruct (all c); [reflexivity|apply over_quiet]. Qed.
Lemma start_these_quiet e op t rs c : c_log (fst (fst (start_these e op t rs c))) = c_log c -> snd (start_these e op t rs c) = tx_ok.
Proof.
  unfold start_these. destruct rs as [|r rs]; [reflexivity|]. pose proof (over_quiet e op (x_id (t_id (involve (r :: rs) t))) (r :: rs) (t_inv (involve (r :: rs) t)) c) as Q.
  destruct (over _ _ _ _ _ _ _) as [c1 code]. cbn in *. intros H. specialize (Q H). congruence.
Qed.
Lemma begin_new_quiet e c : c_log (fst (begin_new e c)) = c_log c -> snd (begin_new e c) = tx_ok.
Proof.
  unfold begin_new. destruct (c_fixed c) as [|r rs] eqn:F; [reflexivity|]. cbn. destruct (try_start e (c_next c) rs _) as [[c2 g] b] eqn:T. apply try_start_grow in T. destruct T as [(evs&->&_) _].
  rewrite log_grow, grow_grow. intros H. exfalso.
  assert (X : forall g' b' c', (match e_xa e (c_log (w_next (c_next c + 1) c)) with xa_ok | read_only => (grow ([Xa StartNew r (c_next c) (e_xa e (c_log (w_next (c_next c + 1) c)))] ++ evs) (w_next (c_next c + 1) c), r :: g, b) | _ => (grow ([Xa StartNew r (c_next c) (e_xa e (c_log (w_next (c_next c + 1) c)))] ++ evs) (w_next (c_next c + 1) c), g, r :: b) end) = (c', g', b') ->
     exists ev2, ev2 <> [] /\ c_log c' = c_log c ++ ev2).
  { intros g' b' c' E. exists ([Xa StartNew r (c_next c) (e_xa e (c_log (w_next (c_next c + 1) c)))] ++ evs). split; [discriminate|]. destruct (e_xa e _); injection E as <- _ _; reflexivity. }
  destruct (match e_xa e _ with xa_ok | read_only => _ | _ => _ end) as [[c1 good] bad] eqn:E. destruct (X _ _ _ eq_refl) as (ev2&NE&L). clear X E.
  destruct bad as [|b0 bad]; cbn in H.
  - rewrite L in H. rewrite <- (app_nil_r (c_log c)) in H at 2. apply app_inv_head in H. contradiction.
  - destruct (end_each_grow e (c_next c) good c1) as (ev3&E3&_). rewrite E3 in H. cbn in H. rewrite L, <- app_assoc in H. rewrite <- (app_nil_r (c_log c)) in H at 2. apply app_inv_head in H.
    destruct ev2; [contradiction|discriminate].
Qed.

(* when nobody outside was asked and the call did not succeed, nothing has changed *)
Lemma refused_unchanged e i c c' k : empty_ok c -> (i = Begin \/ (exists g, i = Suspend g) \/ exists x, i = Resume x) ->
  step e i c = (c', RTx k) -> k <> tx_ok -> c_log c' = c_log c -> c' = c.
Proof.
  intros EO [->|[[g ->]|[x ->]]]; cbn [step tx_result]; intros H NK L.
  - unfold tx_result in H. destruct (begin e c) as [c1 k1] eqn:B. injection H as -> ->. cbn in *. unfold begin in B. destruct (negb (is_null _)).
    + destruct (c_ctl c); try congruence. pose proof (end_all_quiet e EndSuspend (current c) c) as Q. pose proof (fun c1 k => end_all_grow e EndSuspend (current c) c c1 k) as G.
      destruct (end_all e EndSuspend (current c) c) as [c1 code]. destruct (G _ _ eq_refl) as (evs&->&_). cbn in Q.
      destruct (tx_eqb code tx_ok) eqn:K.
      * destruct evs as [|ev evs]; [rewrite grow_nil in B; pose proof (begin_new_quiet e c) as BQ; rewrite B in BQ; cbn in BQ; specialize (BQ L); congruence|].
        exfalso. apply begin_new_spec in B. destruct B as [[-> _]|[_ (ev2&fx&->)]]; [contradiction|]. cbn in L. rewrite <- app_assoc in L. rewrite <- (app_nil_r (c_log c)) in L at 2. apply app_inv_head in L. discriminate L.
      * injection B as <- <-. specialize (Q L). congruence.
    + destruct (t_dyn (current c)); [|congruence]. pose proof (begin_new_quiet e c) as BQ. rewrite B in BQ. cbn in BQ. specialize (BQ L). congruence.
  - unfold tx_result in H. destruct (suspend e g c) as [c1 k1] eqn:B. injection H as -> ->. unfold suspend in B. destruct (negb g); [congruence|]. destruct (is_null (t_id (current c))) eqn:N; [congruence|].
    apply is_null_false in N. destruct (current_real c EO N) as (l&E&S&_). rewrite (set_current_real c _ l (current c) E S) in B.
    pose proof (end_all_quiet e EndSuspend (w_susp true (current c)) (w_txs (l ++ [w_susp true (current c)]) c)) as Q. destruct (end_all _ _ _ _) as [c2 code]. cbn in Q.
    destruct (tx_eqb code tx_ok) eqn:K; [congruence|]. injection B as -> <-. specialize (Q L). injection Q as _ ->. discriminate K.
  - unfold tx_result in H. destruct (resume e x c) as [c1 k1] eqn:B. injection H as -> ->. unfold resume in B. destruct x as [x|]; [|congruence]. destruct (x =? 0); [congruence|]. destruct (negb _ && negb _); [congruence|].
    destruct (t_dyn (current c)); [|congruence]. destruct (split_at x (c_txs c)) as [[[a t] b]|]; [|congruence]. destruct (negb (t_susp t)); [congruence|].
    pose proof (start_these_quiet e StartResume (w_susp false t) (c_fixed c) c) as Q. destruct (start_these _ _ _ _ _) as [[c2 t2] code]. cbn in Q.
    destruct (tx_eqb code tx_ok) eqn:K; [congruence|]. injection B as <- <-. specialize (Q L). subst code. discriminate K.
Qed.

(* suspend *)
Lemma suspend_ok e g c c' : empty_ok c -> suspend e g c = (c', tx_ok) -> g = true /\ in_tx c <> 0 /\ in_tx c' = 0 /\
  exists l t evs, c_txs c = l ++ [t] /\ x_id (t_id t) = in_tx c /\ t_susp t = false /\ c' = grow evs (w_txs (l ++ [w_susp true t]) c).
Proof.
  intros EO. unfold suspend. destruct g; cbn [negb]; [|discriminate]. destruct (is_null (t_id (current c))) eqn:N; [discriminate|]. apply is_null_false in N.
  destruct (current_real c EO N) as (l&E&S&_). rewrite (set_current_real c _ l (current c) E S).
  destruct (end_all _ _ _ _) as [c1 code] eqn:EA. apply end_all_grow in EA. destruct EA as (evs&->&_). intros H. split; [reflexivity|]. split; [rewrite in_tx_eq; exact N|].
  assert (X : c' = grow evs (w_txs (l ++ [w_susp true (current c)]) c)) by (destruct (tx_eqb code tx_ok); congruence). subst c'. split.
  - rewrite in_tx_eq. generalize (w_susp true (current c)) (eq_refl : t_susp (w_susp true (current c)) = true). intros u SU.
    unfold current. cbn. rewrite (proj2 (split_last_some (l ++ [u]) l u) eq_refl), SU. apply is_null_spec. apply EO.
  - exists l, (current c), evs. split; [exact E|]. split; [symmetry; apply in_tx_eq|]. split; [exact S|reflexivity].
Qed.

(* resume *)
Lemma resume_ok e g c c' : empty_ok c -> resume e g c = (c', tx_ok) -> exists x, g = Some x /\ in_tx c = 0 /\ suspended c x /\ in_tx c' = x /\
  exists a t b evs, c_txs c = a ++ t :: b /\ x_id (t_id t) = x /\ c' = grow evs (w_txs (b ++ a ++ [w_susp false (involve (c_fixed c) t)]) c).
Proof.
  intros EO. unfold resume. destruct g as [x|]; [|discriminate]. destruct (x =? 0) eqn:X0; [discriminate|]. apply Z.eqb_neq in X0.
  destruct (is_null (t_id (current c))) eqn:N.
  2:{ pose proof N as N'. apply is_null_false in N'. destruct (current_real c EO N') as (l&_&S&_). rewrite S. discriminate. }
  cbn [negb andb]. destruct (t_dyn (current c)); [|discriminate]. destruct (split_at x (c_txs c)) as [[[a t] b]|] eqn:SA; [|discriminate].
  apply split_at_some in SA. destruct SA as (E&X&U). destruct (t_susp t) eqn:S; [|discriminate]. cbn [negb].
  destruct (start_these _ _ _ _ _) as [[c1 t1] code] eqn:ST. apply start_these_grow in ST. destruct ST as [(evs&->&_) ->].
  destruct (tx_eqb code tx_ok); [|discriminate]. intros [= <-]. exists x. split; [reflexivity|]. split; [rewrite in_tx_eq; apply is_null_spec; exact N|].
  split; [exists a, t, b; auto|]. split.
  - rewrite in_tx_eq. erewrite current_at_end with (l := b ++ a); [|cbn; rewrite app_assoc; reflexivity|reflexivity]. exact X.
  - exists a, t, b, evs. split; [exact E|]. split; [exact X|]. destruct t; reflexivity.
Qed.

(* a transaction the process is in cannot be resumed *)
Lemma resume_current e c x : empty_ok c -> in_tx c <> 0 -> x <> 0 -> resume e (Some x) c = (c, tx_protocol).
Proof.
  intros EO N X. rewrite in_tx_eq in N. unfold resume. apply Z.eqb_neq in X. rewrite X. destruct (current_real c EO N) as (l&_&S&_). rewrite S.
  apply is_null_false in N. rewrite N. reflexivity.
Qed.

(* a suspended one can, if the process does nothing else and the resources agree *)
Lemma over_good e op x rs : (forall l, to_tx (e_xa e l) = tx_ok) -> forall ids c, snd (over e op x ids rs tx_ok c) = tx_ok.
Proof.
  intros G. induction ids as [|r q IH]; intros c; cbn; [reflexivity|]. destruct (mem r rs); [rewrite G|]; apply IH.
Qed.
Lemma resume_possible e c x : empty_ok c -> x <> 0 -> suspended c x -> in_tx c = 0 -> t_dyn (current c) = [] -> (forall l, to_tx (e_xa e l) = tx_ok) -> snd (resume e (Some x) c) = tx_ok.
Proof.
  intros EO X (a&t&b&E&XI&S&U) N D G. rewrite in_tx_eq in N. unfold resume. apply Z.eqb_neq in X. rewrite X. apply is_null_spec in N. rewrite N, D. cbn [negb andb].
  rewrite E, (split_at_app x a t b XI U), S. cbn [negb]. unfold start_these. destruct (c_fixed c) as [|r rs]; [reflexivity|].
  pose proof (over_good e StartResume (x_id (t_id (involve (r :: rs) (w_susp false t)))) (r :: rs) G (t_inv (involve (r :: rs) (w_susp false t))) c) as OG.
  destruct (over _ _ _ _ _ _ _) as [c1 code]. cbn in OG. subst code. reflexivity.
Qed.

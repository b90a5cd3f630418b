From Coq Require Import ZArith List Bool Lia Permutation.
From Verif Require Import CodesModel CtxModel CtxSpec.
Import ListNotations.
Local Open Scope Z_scope.

(* only the log grows *)
Definition grow (evs : list event) (c : ctx) : ctx :=
  mk_ctx (c_txs c) (c_empty c) (c_ctl c) (c_ret c) (c_dynamic c) (c_fixed c) (c_next c) (c_log c ++ evs).
Lemma grow_nil c : grow [] c = c.
Proof. destruct c; unfold grow; cbn. rewrite app_nil_r. reflexivity. Qed.
Lemma grow_grow a b c : grow b (grow a c) = grow (a ++ b) c.
Proof. unfold grow; cbn. rewrite app_assoc. reflexivity. Qed.
Lemma log_grow ev c : log ev c = grow [ev] c. Proof. reflexivity. Qed.

Definition is_xa (op : xop) (x : Z) (ev : event) : Prop := exists r k, ev = Xa op r x k.

Lemma over_grow e op x rs ids : forall code c c' k, over e op x ids rs code c = (c', k) ->
  exists evs, c' = grow evs c /\ Forall (is_xa op x) evs.
Proof.
  induction ids as [|r q IH]; intros code c c' k; cbn.
  - intros [= <- <-]. exists []. rewrite grow_nil. auto.
  - destruct (mem r rs).
    + intros H. apply IH in H. destruct H as (evs&->&F). rewrite log_grow, grow_grow. eexists. split; [reflexivity|].
      apply Forall_app. split; [|exact F]. constructor; [|constructor]. eexists. eexists. reflexivity.
    + intros H. apply IH in H. exact H.
Qed.
Lemma end_all_grow e op t c c' k : end_all e op t c = (c', k) -> exists evs, c' = grow evs c /\ Forall (is_xa op (x_id (t_id t))) evs.
Proof.
  unfold end_all. destruct (all c).
  - intros [= <- <-]. exists []. rewrite grow_nil. auto.
  - apply over_grow.
Qed.
Lemma start_these_grow e op t rs c c' t1 k : start_these e op t rs c = (c', t1, k) ->
  (exists evs, c' = grow evs c /\ Forall (is_xa op (x_id (t_id t))) evs) /\ (t1 = involve rs t).
Proof.
  unfold start_these. destruct rs as [|r rs].
  - intros [= <- <- <-]. split; [exists []; rewrite grow_nil; auto|]. destruct t; reflexivity.
  - destruct (over _ _ _ _ _ _ _) as [c1 code] eqn:E. intros [= <- <- <-]. split; [exact (over_grow _ _ _ _ _ _ _ _ _ E)|reflexivity].
Qed.
Lemma join_each_grow e x known rs : forall code c c' k, join_each e x known rs code c = (c', k) ->
  exists evs, c' = grow evs c /\ Forall (fun ev => is_xa StartNew x ev \/ is_xa StartJoin x ev) evs.
Proof.
  induction rs as [|r q IH]; intros code c c' k; cbn.
  - intros [= <- <-]. exists []. rewrite grow_nil. auto.
  - intros H. apply IH in H. destruct H as (evs&->&F). rewrite log_grow, grow_grow. eexists. split; [reflexivity|].
    constructor; [|exact F]. unfold is_xa. destruct (mem r known); [right|left]; eexists; eexists; reflexivity.
Qed.
Lemma join_these_grow e t rs c c' t1 k : join_these e t rs c = (c', t1, k) -> (exists evs, c' = grow evs c) /\ t1 = involve rs t.
Proof.
  unfold join_these. destruct rs as [|r rs].
  - intros [= <- <- <-]. split; [exists []; rewrite grow_nil; auto|]. destruct t; reflexivity.
  - destruct (join_each _ _ _ _ _ _) as [c1 code] eqn:E. intros [= <- <- <-]. apply join_each_grow in E. destruct E as (evs&->&_).
    split; [|reflexivity]. rewrite log_grow, grow_grow. eauto.
Qed.
Lemma try_start_grow e x rs : forall c c' good bad, try_start e x rs c = (c', good, bad) ->
  (exists evs, c' = grow evs c /\ Forall (is_xa StartNew x) evs) /\ Permutation rs (good ++ bad).
Proof.
  induction rs as [|r q IH]; intros c c' good bad; cbn.
  - intros [= <- <- <-]. split; [exists []; rewrite grow_nil; auto|constructor].
  - destruct (try_start e x q _) as [[c2 g] b] eqn:E. apply IH in E. destruct E as [(evs&->&F) P]. intros H.
    split.
    + exists ([Xa StartNew r x (e_xa e (c_log c))] ++ evs). split.
      * rewrite log_grow, grow_grow in H. destruct (e_xa e (c_log c)); injection H as <- _ _; reflexivity.
      * constructor; [eexists; eexists; reflexivity|exact F].
    + destruct (e_xa e (c_log c)); injection H as _ <- <-; cbn; first [constructor; exact P | apply Permutation_cons_app; exact P].
Qed.
Lemma end_each_grow e x rs : forall c, exists evs, end_each e x rs c = grow evs c /\ Forall (is_xa EndSuccess x) evs.
Proof.
  induction rs as [|r q IH]; intros c; cbn.
  - exists []. rewrite grow_nil. auto.
  - destruct (IH (log (Xa EndSuccess r x (e_xa e (c_log c))) c)) as (evs&->&F). rewrite log_grow, grow_grow. eexists. split; [reflexivity|].
    constructor; [eexists; eexists; reflexivity|exact F].
Qed.

(* what commit and rollback of one transaction do: end, then one way or the other *)
Definition is_commit (x : Z) (ev : event) : Prop := (exists r k, ev = Xa CommitOnePhase r x k) \/ exists rs st k, ev = TmCommit x rs st k.
Definition is_rollback (x : Z) (ev : event) : Prop := (exists r k, ev = Xa RollbackRm r x k) \/ exists rs k, ev = TmRollback x rs k.
Definition follow_up (x : Z) (ev : event) : Prop := (exists k, ev = TmFinal x k) \/ ev = TmDiscard x.

Lemma commit_tx_grow e t c c' k : commit_tx e t c = (c', k) -> exists evs, c' = grow evs c /\
  Forall (fun ev => is_xa EndSuccess (x_id (t_id t)) ev \/ is_commit (x_id (t_id t)) ev \/ follow_up (x_id (t_id t)) ev) evs.
Proof.
  unfold commit_tx. destruct (end_all e EndSuccess t c) as [c1 code] eqn:E. apply end_all_grow in E. destruct E as (evs&->&F).
  assert (F' : Forall (fun ev => is_xa EndSuccess (x_id (t_id t)) ev \/ is_commit (x_id (t_id t)) ev \/ follow_up (x_id (t_id t)) ev) evs).
  { eapply Forall_impl; [|exact F]. intros a H. left. exact H. }
  destruct (negb (tx_eqb code tx_ok)); [intros [= <- <-]; eauto|].
  destruct (local t && Nat.leb (length (t_inv t)) 1).
  - destruct (t_inv t) as [|r q]; [intros [= <- <-]; eauto|]. unfold rm_commit. destruct (mem r (all _)); [|intros [= <- <-]; eauto].
    cbn. intros [= <- <-]. rewrite log_grow, grow_grow. eexists. split; [reflexivity|]. apply Forall_app. split; [exact F'|].
    constructor; [|constructor]. right. left. left. eexists. eexists. reflexivity.
  - destruct (e_tm e _) as [st kk]. rewrite log_grow, grow_grow. set (ev := TmCommit _ _ _ _).
    assert (F2 : Forall (fun ev => is_xa EndSuccess (x_id (t_id t)) ev \/ is_commit (x_id (t_id t)) ev \/ follow_up (x_id (t_id t)) ev) (evs ++ [ev])).
    { apply Forall_app. split; [exact F'|]. constructor; [|constructor]. right. left. right. eexists. eexists. eexists. reflexivity. }
    destruct st; [|intros [= <- <-]; eauto|intros [= <- <-]; eauto].
    destruct (c_ret _); intros [= <- <-]; rewrite log_grow, grow_grow; eexists; (split; [reflexivity|]); apply Forall_app; (split; [exact F2|]).
    + constructor; [|constructor]. right. right. left. eexists. reflexivity.
    + constructor; [|constructor]. right. right. right. reflexivity.
Qed.

Lemma rollback_each_grow e t rs : forall code c c' k, rollback_each e t rs code c = (c', k) -> exists evs, c' = grow evs c /\ Forall (is_rollback (x_id (t_id t))) evs.
Proof.
  induction rs as [|r q IH]; intros code c c' k; cbn.
  - intros [= <- <-]. exists []. rewrite grow_nil. auto.
  - unfold rm_rollback. destruct (mem r (all c)); cbn; intros H; apply IH in H; [|exact H].
    destruct H as (evs&->&F). rewrite log_grow, grow_grow. eexists. split; [reflexivity|]. constructor; [left; eexists; eexists; reflexivity|exact F].
Qed.
Lemma rollback_tx_grow e t c c' k : rollback_tx e t c = (c', k) -> exists evs, c' = grow evs c /\
  Forall (fun ev => is_xa EndSuccess (x_id (t_id t)) ev \/ is_rollback (x_id (t_id t)) ev) evs.
Proof.
  unfold rollback_tx. destruct (end_all e EndSuccess t c) as [c1 code] eqn:E. apply end_all_grow in E. destruct E as (evs&->&F).
  assert (F' : Forall (fun ev => is_xa EndSuccess (x_id (t_id t)) ev \/ is_rollback (x_id (t_id t)) ev) evs).
  { eapply Forall_impl; [|exact F]. intros a H. left. exact H. }
  destruct (negb (tx_eqb code tx_ok)); [intros [= <- <-]; eauto|].
  destruct (local t).
  - intros H. apply rollback_each_grow in H. destruct H as (ev2&->&F2). rewrite grow_grow. eexists. split; [reflexivity|]. apply Forall_app. split; [exact F'|].
    eapply Forall_impl; [|exact F2]. auto.
  - intros [= <- <-]. rewrite log_grow, grow_grow. eexists. split; [reflexivity|]. apply Forall_app. split; [exact F'|]. constructor; [|constructor]. right. right. eexists. eexists. reflexivity.
Qed.

(* ------------------------------------------------------------------ the end of the vector *)

Lemma split_last_some {A} (l l' : list A) x : split_last l = Some (l', x) <-> l = l' ++ [x].
Proof.
  unfold split_last. split.
  - destruct (rev l) as [|y r] eqn:E; [discriminate|]. intros [= <- <-]. rewrite <- (rev_involutive l), E. reflexivity.
  - intros ->. rewrite rev_app_distr. cbn. rewrite rev_involutive. reflexivity.
Qed.
Lemma split_last_none {A} (l : list A) : split_last l = None <-> l = [].
Proof. unfold split_last. split; [|intros ->; reflexivity]. destruct (rev l) as [|y r] eqn:E; [|discriminate]. intros _. rewrite <- (rev_involutive l), E. reflexivity. Qed.

(* outside any transaction there is a null transaction, that cannot be suspended *)
Definition empty_ok (c : ctx) : Prop := is_null (t_id (c_empty c)) = true /\ t_susp (c_empty c) = false.

Lemma is_null_spec t : is_null t = true <-> x_id t = 0. Proof. unfold is_null. apply Z.eqb_eq. Qed.
Lemma is_null_false t : is_null t = false <-> x_id t <> 0. Proof. unfold is_null. apply Z.eqb_neq. Qed.

(* current is a transaction: it is the last *)
Lemma current_real c : empty_ok c -> x_id (t_id (current c)) <> 0 -> exists l, c_txs c = l ++ [current c] /\ t_susp (current c) = false /\ split_last (c_txs c) = Some (l, current c).
Proof.
  intros [N S] H. unfold current in *. destruct (split_last (c_txs c)) as [[l t]|] eqn:E.
  - destruct (t_susp t) eqn:T; [apply is_null_spec in N; contradiction|]. exists l. split; [apply split_last_some; exact E|]. split; [exact T|reflexivity].
  - apply is_null_spec in N. contradiction.
Qed.
Lemma current_at_end c l t : c_txs c = l ++ [t] -> t_susp t = false -> current c = t.
Proof. intros E S. unfold current. apply split_last_some in E. rewrite E, S. reflexivity. Qed.
Lemma in_tx_eq c : in_tx c = x_id (t_id (current c)).
Proof.
  unfold in_tx, info. destruct (is_null (t_id (current c))) eqn:N; cbn; [|reflexivity]. apply is_null_spec in N. auto.
Qed.
Lemma set_current_real c t l u : c_txs c = l ++ [u] -> t_susp u = false -> set_current t c = w_txs (l ++ [t]) c.
Proof. intros E S. unfold set_current. apply split_last_some in E. rewrite E, S. reflexivity. Qed.

Lemma held_app l t c : c_txs c = l ++ [t] -> held c = map (fun t => x_id (t_id t)) l ++ [x_id (t_id t)].
Proof. intros E. unfold held. rewrite E, map_app. reflexivity. Qed.

(* ------------------------------------------------------------------ the pieces of a step *)

Definition is_begun (x : Z) (c c' : ctx) : Prop := exists evs fx, c' = grow evs (mk_ctx (c_txs c ++ [involve (c_fixed c) (new_txn (mk_tid x me))]) (c_empty c) (c_ctl c) (c_ret c) (c_dynamic c) fx (c_next c + 1) (c_log c)) /\ x = c_next c.

Lemma begin_new_spec e c c' k : begin_new e c = (c', k) ->
  (k = tx_ok /\ exists evs, c' = grow evs (w_txs (c_txs c ++ [involve (c_fixed c) (new_txn (mk_tid (c_next c) me))]) (w_next (c_next c + 1) c))) \/
  (k = tx_error /\ exists evs fx, c' = grow evs (w_fixed fx (w_next (c_next c + 1) c))).
Proof.
  unfold begin_new. destruct (try_start e (c_next c) (c_fixed c) _) as [[c1 good] bad] eqn:E. apply try_start_grow in E. destruct E as [(evs&->&_) P].
  destruct bad as [|b bad].
  - intros [= <- <-]. left. split; [reflexivity|]. exists evs. reflexivity.
  - intros [= <- <-]. right. split; [reflexivity|]. destruct (end_each_grow e (c_next c) good (grow evs (w_next (c_next c + 1) c))) as (ev2&->&_). exists (evs ++ ev2), (good ++ b :: bad). unfold grow, w_fixed; cbn. rewrite app_assoc. reflexivity.
Qed.

Lemma begin_spec e c c' k : begin e c = (c', k) ->
  (k = tx_ok /\ exists evs, c' = grow evs (w_txs (c_txs c ++ [involve (c_fixed c) (new_txn (mk_tid (c_next c) me))]) (w_next (c_next c + 1) c))) \/
  (k <> tx_ok /\ exists evs fx n, c' = grow evs (w_fixed fx (w_next n c)) /\ c_next c <= n).
Proof.
  unfold begin. assert (BN : forall evs0, begin_new e (grow evs0 c) = (c', k) ->
    (k = tx_ok /\ exists evs, c' = grow evs (w_txs (c_txs c ++ [involve (c_fixed c) (new_txn (mk_tid (c_next c) me))]) (w_next (c_next c + 1) c))) \/
    (k <> tx_ok /\ exists evs fx n, c' = grow evs (w_fixed fx (w_next n c)) /\ c_next c <= n)).
  { intros evs0 H. apply begin_new_spec in H. destruct H as [[-> (evs&->)]|[-> (evs&fx&->)]].
    - left. split; [reflexivity|]. exists (evs0 ++ evs). unfold grow, w_txs, w_next; cbn. rewrite app_assoc. reflexivity.
    - right. split; [discriminate|]. exists (evs0 ++ evs), fx, (c_next c + 1). split; [unfold grow, w_fixed, w_next; cbn; rewrite app_assoc; reflexivity|lia]. }
  assert (SAME : forall kk, kk <> tx_ok -> (c, kk) = (c', k) -> k <> tx_ok /\ exists evs fx n, c' = grow evs (w_fixed fx (w_next n c)) /\ c_next c <= n).
  { intros kk N [= <- <-]. split; [exact N|]. exists [], (c_fixed c), (c_next c). split; [rewrite grow_nil; destruct c; reflexivity|lia]. }
  destruct (negb (is_null (t_id (current c)))).
  - destruct (c_ctl c); try (intros H; right; exact (SAME tx_protocol ltac:(discriminate) H)).
    destruct (end_all e EndSuspend (current c) c) as [c1 code] eqn:E. apply end_all_grow in E. destruct E as (evs&->&_).
    destruct (tx_eqb code tx_ok) eqn:K; [apply BN|]. intros [= <- <-]. right. split; [intros ->; discriminate K|].
    exists evs, (c_fixed c), (c_next c). split; [destruct c; reflexivity|lia].
  - destruct (t_dyn (current c)); [intros H; apply (BN []); rewrite grow_nil; exact H|intros H; right; exact (SAME tx_outside ltac:(discriminate) H)].
Qed.

Lemma empty_ok_grow evs c : empty_ok c -> empty_ok (grow evs c). Proof. auto. Qed.

Lemma continuation_spec e code c c' k : empty_ok c -> continuation e code c = (c', k) ->
  match c_ctl c with
  | Unchained => c' = c /\ k = code
  | Chained => exists k', begin e c = (c', k') /\ k = tx_add code k'
  | Stacked =>
      (in_tx c = 0 /\ c' = c /\ k = code) \/
      exists l t evs, c_txs c = l ++ [t] /\ t_susp t = false /\ in_tx c = x_id (t_id t) /\ c' = grow evs (w_txs (l ++ [involve (all c) t]) c) /\
                      Forall (is_xa StartResume (x_id (t_id t))) evs
  end.
Proof.
  intros EO. unfold continuation. destruct (c_ctl c) eqn:CT.
  - intros [= <- <-]. auto.
  - destruct (begin e c) as [c1 k1]. intros [= <- <-]. eauto.
  - destruct (is_null (t_id (current c))) eqn:N.
    + intros [= <- <-]. left. rewrite in_tx_eq. apply is_null_spec in N. auto.
    + apply is_null_false in N. destruct (current_real c EO N) as (l&E&S&SL).
      destruct (start_these e StartResume (current c) (all c) c) as [[c1 t1] k1] eqn:ST. apply start_these_grow in ST. destruct ST as [(evs&->&F) ->].
      intros [= <- <-]. right. exists l, (current c), evs. split; [exact E|]. split; [exact S|]. split; [apply in_tx_eq|]. split; [|exact F].
      rewrite (set_current_real (grow evs c) _ l (current c) E S). reflexivity.
Qed.

Lemma may_commit_spec t : may_commit t = true <-> x_id (t_id t) <> 0 /\ x_own (t_id t) = me /\ t_state t = active /\ t_pend t = [].
Proof.
  unfold may_commit. rewrite !andb_true_iff, negb_true_iff, is_null_false, !Z.eqb_eq.
  assert (X : match t_pend t with [] => true | _ => false end = true <-> t_pend t = []) by (destruct (t_pend t); split; congruence). rewrite X. tauto.
Qed.
Lemma may_rollback_spec t : may_rollback t = true <-> x_id (t_id t) <> 0 /\ x_own (t_id t) = me.
Proof. unfold may_rollback. rewrite andb_true_iff, negb_true_iff, is_null_false, Z.eqb_eq. tauto. Qed.

Lemma committable_current c t : empty_ok c -> (committable c t <-> may_commit (current c) = true /\ t = current c).
Proof.
  intros EO. split.
  - intros ((l&E&S&N)&O&A&P). rewrite (current_at_end c l t E S). split; [apply may_commit_spec; auto|reflexivity].
  - intros [M ->]. apply may_commit_spec in M. destruct M as (N&O&A&P). destruct (current_real c EO N) as (l&E&S&_). split; [exists l; auto|auto].
Qed.
Lemma rollbackable_current c t : empty_ok c -> (rollbackable c t <-> may_rollback (current c) = true /\ t = current c).
Proof.
  intros EO. split.
  - intros ((l&E&S&N)&O). rewrite (current_at_end c l t E S). split; [apply may_rollback_spec; auto|reflexivity].
  - intros [M ->]. apply may_rollback_spec in M. destruct M as (N&O). destruct (current_real c EO N) as (l&E&S&_). split; [exists l; auto|auto].
Qed.

(* an accepted commit: the transaction leaves, its completion, the continuation *)
Lemma commit_accepted e c t l : c_txs c = l ++ [t] -> t_susp t = false -> may_commit t = true ->
  commit e c = let '(c1, code) := commit_tx e t (w_txs l c) in continuation e code c1.
Proof. intros E S M. unfold commit. rewrite (current_at_end c l t E S), M. apply split_last_some in E. rewrite E. reflexivity. Qed.
Lemma commit_refused e c : may_commit (current c) = false -> commit e c = (c, tx_protocol).
Proof. intros M. unfold commit. rewrite M. reflexivity. Qed.
Lemma rollback_accepted e c t l : c_txs c = l ++ [t] -> t_susp t = false -> may_rollback t = true ->
  rollback e c = let '(c1, code) := rollback_tx e t (w_txs l c) in continuation e code c1.
Proof. intros E S M. unfold rollback. rewrite (current_at_end c l t E S), M. apply split_last_some in E. rewrite E. reflexivity. Qed.
Lemma rollback_refused e c : may_rollback (current c) = false -> rollback e c = (c, tx_protocol).
Proof. intros M. unfold rollback. rewrite M. reflexivity. Qed.

Lemma split_at_some x l : forall a t b, split_at x l = Some (a, t, b) -> l = a ++ t :: b /\ x_id (t_id t) = x /\ forall u, In u a -> x_id (t_id u) <> x.
Proof.
  induction l as [|u l IH]; intros a t b; cbn; [discriminate|]. destruct (x_id (t_id u) =? x) eqn:E.
  - intros [= <- <- <-]. apply Z.eqb_eq in E. split; [reflexivity|]. split; [exact E|]. intros v [].
  - destruct (split_at x l) as [[[a' t'] b']|]; [|discriminate]. intros [= <- <- <-]. destruct (IH a' t' b' eq_refl) as (->&X&N).
    split; [reflexivity|]. split; [exact X|]. intros v [<-|I]; [apply Z.eqb_neq; exact E|exact (N v I)].
Qed.
Lemma split_at_app x a t b : x_id (t_id t) = x -> (forall u, In u a -> x_id (t_id u) <> x) -> split_at x (a ++ t :: b) = Some (a, t, b).
Proof.
  intros X. induction a as [|u a IH]; intros N; cbn.
  - rewrite X, Z.eqb_refl. reflexivity.
  - rewrite (proj2 (Z.eqb_neq _ _) (N u (or_introl eq_refl))), IH; [reflexivity|]. intros v I. apply N. right. exact I.
Qed.
Lemma split_at_none x l : split_at x l = None -> forall u, In u l -> x_id (t_id u) <> x.
Proof.
  induction l as [|u l IH]; cbn; [intros _ v []|]. destruct (x_id (t_id u) =? x) eqn:E; [discriminate|].
  destruct (split_at x l) as [[[a t] b]|]; [discriminate|]. intros _ v [<-|I]; [apply Z.eqb_neq; exact E|exact (IH eq_refl v I)].
Qed.

Lemma pending_check_grow ts : forall r c c' r', pending_check ts r c = (c', r') -> exists evs, c' = grow evs c /\ Forall (fun ev => exists p, ev = Discard p) evs.
Proof.
  assert (FD : forall ps c, exists evs, fold_left (fun c p => log (Discard p) c) ps c = grow evs c /\ Forall (fun ev => exists p, ev = Discard p) evs).
  { induction ps as [|p ps IH]; intros c; cbn; [exists []; rewrite grow_nil; auto|]. destruct (IH (log (Discard p) c)) as (evs&->&F). rewrite log_grow, grow_grow. eexists. split; [reflexivity|].
    constructor; [eexists; reflexivity|exact F]. }
  induction ts as [|t ts IH]; intros r c c' r'; cbn.
  - intros [= <- <-]. exists []. rewrite grow_nil. auto.
  - destruct (t_pend t) as [|p ps]; [apply IH|]. intros H. apply IH in H. destruct H as (evs&->&F). destruct (FD (p :: ps) c) as (ev2&E2&F2). cbn in E2. rewrite E2, grow_grow. eexists. split; [reflexivity|].
    apply Forall_app. auto.
Qed.

(* what the completion of the transactions in the list does *)
Definition completing (do_commit : bool) (ts : list txn) (ev : event) : Prop :=
  exists t, In t ts /\ (is_xa EndSuccess (x_id (t_id t)) ev \/ follow_up (x_id (t_id t)) ev \/
    (if do_commit && (t_state t =? active) then is_commit (x_id (t_id t)) ev else is_rollback (x_id (t_id t)) ev)).
Lemma complete_each_grow e b ts : forall code c c' k, complete_each e b ts code c = (c', k) -> exists evs, c' = grow evs c /\ Forall (completing b ts) evs.
Proof.
  induction ts as [|t ts IH]; intros code c c' k; cbn.
  - intros [= <- <-]. exists []. rewrite grow_nil. auto.
  - destruct (if b && (t_state t =? active) then commit_tx e t c else rollback_tx e t c) as [c1 k1] eqn:E. intros H. apply IH in H. destruct H as (evs&->&F).
    assert (X : exists ev2, c1 = grow ev2 c /\ Forall (completing b (t :: ts)) ev2).
    { destruct (b && (t_state t =? active)) eqn:C; [apply commit_tx_grow in E|apply rollback_tx_grow in E]; destruct E as (ev2&->&F2); exists ev2; (split; [reflexivity|]);
        (eapply Forall_impl; [|exact F2]); intros ev H; exists t; (split; [left; reflexivity|]); rewrite C; cbv iota; [destruct H as [H|[H|H]]|destruct H as [H|H]]; auto. }
    destruct X as (ev2&->&F2). rewrite grow_grow. eexists. split; [reflexivity|]. apply Forall_app. split; [exact F2|]. eapply Forall_impl; [|exact F].
    intros ev (u&I&H). exists u. split; [right; exact I|exact H].
Qed.

Lemma finalize_grow e b c c' s : finalize e b c = (c', s) ->
  exists evs, c' = grow evs (w_txs [] c) /\
    Forall (fun ev => (exists p, ev = Discard p) \/ completing b (filter owned (filter (fun t => negb (is_null (t_id t))) (c_txs c))) ev \/
                      exists t, In t (c_txs c) /\ owned t = false /\ is_xa EndSuccess (x_id (t_id t)) ev) evs.
Proof.
  unfold finalize. destruct (pending_check (c_txs c) m_ok (w_txs [] c)) as [c1 r1] eqn:P. apply pending_check_grow in P. destruct P as (ev1&->&F1).
  destruct (complete_each e b _ tx_ok _) as [c2 code] eqn:C. apply complete_each_grow in C. destruct C as (ev2&->&F2). rewrite grow_grow.
  set (Q := fun ev => (exists p, ev = Discard p) \/ completing b (filter owned (filter (fun t => negb (is_null (t_id t))) (c_txs c))) ev \/ exists t, In t (c_txs c) /\ owned t = false /\ is_xa EndSuccess (x_id (t_id t)) ev).
  assert (F : Forall Q (ev1 ++ ev2)). { apply Forall_app. split; [eapply Forall_impl; [|exact F1]|eapply Forall_impl; [|exact F2]]; intros ev H; [left|right; left]; exact H. }
  destruct (filter (fun t => negb (owned t)) _) as [|t o] eqn:O; [intros [= <- <-]; eexists; split; [reflexivity|exact F]|].
  destruct (end_all e EndSuccess t _) as [c3 k3] eqn:E. apply end_all_grow in E. destruct E as (ev3&->&F3). intros [= <- <-]. rewrite grow_grow. eexists. split; [reflexivity|].
  apply Forall_app. split; [exact F|]. eapply Forall_impl; [|exact F3]. intros ev H. right. right.
  assert (I : In t (filter (fun t => negb (owned t)) (filter (fun t => negb (is_null (t_id t))) (c_txs c)))) by (rewrite O; left; reflexivity).
  apply filter_In in I. destruct I as [I N]. apply filter_In in I. destruct I as [I _]. exists t. split; [exact I|]. split; [destruct (owned t); [discriminate|reflexivity]|exact H].
Qed.

Lemma update_first_ids corr s l : map (fun t => x_id (t_id t)) (update_first corr s l) = map (fun t => x_id (t_id t)) l.
Proof. induction l as [|t l IH]; cbn; [reflexivity|]. destruct (mem corr (t_pend t)); cbn; [|rewrite IH; reflexivity]. destruct (t_state t <? s); reflexivity. Qed.

(* ------------------------------------------------------------------ the null transaction *)

Lemma set_current_empty t c : empty_ok c -> (x_id (t_id t) = x_id (t_id (current c)) /\ (x_id (t_id (current c)) = 0 -> t_susp t = t_susp (current c))) -> empty_ok (set_current t c).
Proof.
  intros [N S] [X U]. unfold set_current, current in *. destruct (split_last (c_txs c)) as [[l u]|].
  - destruct (t_susp u) eqn:T; [|split; assumption]. split; cbn; [apply is_null_spec; rewrite X; apply is_null_spec; exact N|]. rewrite U; [exact S|apply is_null_spec; exact N].
  - split; cbn; [apply is_null_spec; rewrite X; apply is_null_spec; exact N|]. rewrite U; [exact S|apply is_null_spec; exact N].
Qed.

Lemma step_empty e i c : empty_ok c -> empty_ok (fst (step e i c)).
Proof.
  intros EO.
  assert (BG : forall c0 c' k, empty_ok c0 -> begin e c0 = (c', k) -> empty_ok c').
  { intros c0 c' k E0 H. apply begin_spec in H. destruct H as [[_ (evs&->)]|[_ (evs&fx&n&->&_)]]; exact E0. }
  assert (CO : forall c0 c' code k, empty_ok c0 -> continuation e code c0 = (c', k) -> empty_ok c').
  { intros c0 c' code k E0 H. apply (continuation_spec e code c0 c' k E0) in H. destruct (c_ctl c0).
    - destruct H as [-> _]. exact E0.
    - destruct H as (k'&H&_). exact (BG _ _ _ E0 H).
    - destruct H as [(_&->&_)|(l&t&evs&_&_&_&->&_)]; exact E0. }
  destruct i; cbn [step].
  - unfold tx_result. destruct (begin e c) as [c' k] eqn:E. exact (BG _ _ _ EO E).
  - unfold tx_result, commit. destruct (may_commit (current c)); [|exact EO]. destruct (split_last (c_txs c)) as [[l t]|]; [|exact EO].
    destruct (commit_tx e t (w_txs l c)) as [c1 code] eqn:E. apply commit_tx_grow in E. destruct E as (evs&->&_).
    destruct (continuation e code _) as [c' k] eqn:E2. exact (CO _ _ _ _ (EO : empty_ok (grow evs (w_txs l c))) E2).
  - unfold tx_result, rollback. destruct (may_rollback (current c)); [|exact EO]. destruct (split_last (c_txs c)) as [[l t]|]; [|exact EO].
    destruct (rollback_tx e t (w_txs l c)) as [c1 code] eqn:E. apply rollback_tx_grow in E. destruct E as (evs&->&_).
    destruct (continuation e code _) as [c' k] eqn:E2. exact (CO _ _ _ _ (EO : empty_ok (grow evs (w_txs l c))) E2).
  - unfold tx_result, suspend. destruct (negb given); [exact EO|]. destruct (is_null (t_id (current c))) eqn:N; [exact EO|].
    destruct (end_all e EndSuspend _ _) as [c1 code] eqn:E. apply end_all_grow in E. destruct E as (evs&->&_).
    assert (X : empty_ok (set_current (w_susp true (current c)) c)). { apply set_current_empty; [exact EO|]. split; [reflexivity|]. intros Z0. apply is_null_false in N. contradiction. }
    destruct (tx_eqb code tx_ok); exact X.
  - unfold tx_result, resume. destruct x as [x|]; [|exact EO]. destruct (x =? 0); [exact EO|]. destruct (negb _ && negb _); [exact EO|]. destruct (t_dyn (current c)); [|exact EO].
    destruct (split_at x (c_txs c)) as [[[a t] b]|]; [|exact EO]. destruct (negb (t_susp t)); [exact EO|].
    destruct (start_these _ _ _ _ _) as [[c1 t1] code] eqn:E. apply start_these_grow in E. destruct E as [(evs&->&_) _]. destruct (tx_eqb code tx_ok); exact EO.
  - exact EO.
  - exact EO.
  - exact EO.
  - cbn. destruct (is_null (t_id (current c))) eqn:N; [exact EO|]. apply set_current_empty; [exact EO|]. split; [reflexivity|]. intros Z0. reflexivity.
  - exact EO.
  - cbn. destruct (is_null (t_id (current c))) eqn:N; [exact EO|]. apply set_current_empty; [exact EO|]. split; [reflexivity|]. intros Z0. reflexivity.
  - unfold register. destruct (negb (mem r (c_dynamic c))); [exact EO|]. destruct (mem r (t_dyn (current c))); [exact EO|].
    destruct (is_null (t_id (current c))); [apply set_current_empty; [exact EO|split; reflexivity]|].
    destruct (mem r _); [apply set_current_empty; [exact EO|split; reflexivity]|]. destruct (local _); [apply set_current_empty; [exact EO|split; reflexivity]|].
    cbn [fst]. apply set_current_empty; [exact EO|split; reflexivity].
  - unfold unregister. destruct (negb _); [exact EO|]. destruct (mem r _); [|exact EO]. apply set_current_empty; [exact EO|split; reflexivity].
  - unfold join. destruct (is_null t); [exact EO|]. destruct (join_these _ _ _ _) as [[c1 t1] code] eqn:E. apply join_these_grow in E. destruct E as [(evs&->) _]. exact EO.
  - unfold start. destruct (start_these _ _ _ _ _) as [[c1 t1] code] eqn:E. apply start_these_grow in E. destruct E as [(evs&->&_) _]. destruct (tx_eqb code tx_ok); exact EO.
  - unfold branch. destruct (is_null t); [exact EO|]. destruct (start_these _ _ _ _ _) as [[c1 t1] code] eqn:E. apply start_these_grow in E. destruct E as [(evs&->&_) _].
    destruct (c_fixed c); exact EO.
  - destruct (finalize e do_commit c) as [c1 s] eqn:E. apply finalize_grow in E. destruct E as (evs&->&_). exact EO.
Qed.

Lemma run_snoc e is i c : fst (run e (is ++ [i]) c) = fst (step e i (fst (run e is c))).
Proof.
  revert c. induction is as [|j is IH]; intros c; cbn.
  - destruct (step e i c) as [c1 r]. reflexivity.
  - destruct (step e j c) as [c1 r]. specialize (IH c1). destruct (run e (is ++ [i]) c1) as [c2 h]. destruct (run e is c1) as [c3 h3]. exact IH.
Qed.
Lemma reach_ind e d f (P : ctx -> Prop) : P (init d f) -> (forall c i, reach e d f c -> P c -> P (fst (step e i c))) -> forall c, reach e d f c -> P c.
Proof.
  intros P0 PS c [is <-]. induction is as [|i is IH] using rev_ind; [exact P0|]. rewrite run_snoc. apply PS; [exists is; reflexivity|exact IH].
Qed.
Lemma reach_empty e d f c : reach e d f c -> empty_ok c.
Proof. apply reach_ind; [split; reflexivity|]. intros c0 i _ H. apply step_empty. exact H. Qed.
Lemma reach_step e d f c i : reach e d f c -> reach e d f (fst (step e i c)).
Proof. intros [is <-]. exists (is ++ [i]). apply run_snoc. Qed.

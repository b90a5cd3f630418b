(* Completion, chained mode, and the state that comes with replies *)
From Coq Require Import ZArith List Bool Lia Permutation.
From Verif Require Import CodesModel CtxModel CtxSpec CtxProofs CtxHeld CtxXa.
Import ListNotations.
Local Open Scope Z_scope.

Lemma tx_add_ok a b : tx_add a b = tx_ok -> a = tx_ok /\ b = tx_ok.
Proof. destruct a, b; intros H; vm_compute in H; try discriminate H; auto. Qed.
Lemma tx_add_ok_r a : tx_add a tx_ok = a.
Proof. destruct a; vm_compute; reflexivity. Qed.
Lemma to_tx_ok k : to_tx k = tx_ok -> k = xa_ok \/ k = read_only.
Proof. destruct k; cbn; intros H; try discriminate H; auto. Qed.

(* ------------------------------------------------------------------ what is said in a step *)

(* association only: nobody is asked to commit or to roll back *)
Definition plain (ev : event) : Prop := forall x, ~ some_commit x ev /\ ~ some_rollback x ev.
Lemma plain_xa op x ev : is_xa op x ev -> op <> CommitOnePhase -> op <> RollbackRm -> plain ev.
Proof. intros (r&k&->) N1 N2 y. split; intros [(r'&k'&E)|H]; try congruence; [destruct H as (a&b&d&E)|destruct H as (a&b&E)]; discriminate. Qed.
Lemma plain_other ev : (forall op r x k, ev <> Xa op r x k) -> (forall x rs st k, ev <> TmCommit x rs st k) -> (forall x rs k, ev <> TmRollback x rs k) -> plain ev.
Proof. intros N1 N2 N3 y. split; intros [(r'&k'&E)|H]; try (exact (N1 _ _ _ _ E)); [destruct H as (a&b&d&E); exact (N2 _ _ _ _ E)|destruct H as (a&b&E); exact (N3 _ _ _ E)]. Qed.
Lemma plain_all op x evs : Forall (is_xa op x) evs -> op <> CommitOnePhase -> op <> RollbackRm -> Forall plain evs.
Proof. intros F N1 N2. eapply Forall_impl; [|exact F]. intros ev H. exact (plain_xa op x ev H N1 N2). Qed.

Lemma begin_new_plain e c c' k : begin_new e c = (c', k) -> exists evs, since c c' evs /\ Forall plain evs.
Proof.
  unfold begin_new. destruct (try_start e (c_next c) (c_fixed c) _) as [[c1 good] bad] eqn:E. apply try_start_grow in E. destruct E as [(evs&->&F) _].
  pose proof (plain_all _ _ _ F ltac:(discriminate) ltac:(discriminate)) as P. destruct bad.
  - intros [= <- <-]. exists evs. split; [reflexivity|exact P].
  - intros [= <- <-]. destruct (end_each_grow e (c_next c) good (grow evs (w_next (c_next c + 1) c))) as (ev2&->&F2). exists (evs ++ ev2). split; [unfold since; cbn; rewrite app_assoc; reflexivity|].
    apply Forall_app. split; [exact P|exact (plain_all _ _ _ F2 ltac:(discriminate) ltac:(discriminate))].
Qed.
Lemma since_nil c : since c c []. Proof. unfold since. rewrite app_nil_r. reflexivity. Qed.
Lemma begin_plain e c c' k : begin e c = (c', k) -> exists evs, since c c' evs /\ Forall plain evs.
Proof.
  assert (SAME : forall kk, (c, kk) = (c', k) -> exists evs, since c c' evs /\ Forall plain evs) by (intros kk [= <- <-]; exists []; split; [apply since_nil|constructor]).
  unfold begin. destruct (negb (is_null (t_id (current c)))).
  - destruct (c_ctl c); [exact (SAME _)|exact (SAME _)|]. destruct (end_all e EndSuspend (current c) c) as [c1 code] eqn:E. apply end_all_grow in E. destruct E as (evs&->&F).
    pose proof (plain_all _ _ _ F ltac:(discriminate) ltac:(discriminate)) as P. destruct (tx_eqb code tx_ok).
    + intros H. apply begin_new_plain in H. destruct H as (ev2&S&P2). exists (evs ++ ev2). split; [unfold since in *; rewrite S; cbn; rewrite app_assoc; reflexivity|apply Forall_app; auto].
    + intros [= <- <-]. exists evs. split; [reflexivity|exact P].
  - destruct (t_dyn (current c)); [apply begin_new_plain|exact (SAME _)].
Qed.
Lemma set_current_log t c : c_log (set_current t c) = c_log c.
Proof. unfold set_current. destruct (split_last _) as [[l u]|]; [destruct (t_susp u)|]; reflexivity. Qed.
Lemma continuation_plain e code c c' k : continuation e code c = (c', k) -> exists evs, since c c' evs /\ Forall plain evs.
Proof.
  unfold continuation. destruct (c_ctl c).
  - intros [= <- <-]. exists []. split; [apply since_nil|constructor].
  - destruct (begin e c) as [c1 k1] eqn:B. intros [= <- <-]. exact (begin_plain _ _ _ _ B).
  - destruct (is_null _); [intros [= <- <-]; exists []; split; [apply since_nil|constructor]|].
    destruct (start_these _ _ _ _ _) as [[c1 t1] k1] eqn:E. apply start_these_grow in E. destruct E as [(evs&->&F) _]. intros [= <- <-]. exists evs. split; [unfold since; rewrite set_current_log; reflexivity|].
    exact (plain_all _ _ _ F ltac:(discriminate) ltac:(discriminate)).
Qed.

(* ------------------------------------------------------------------ every involved resource is reached *)

Lemma over_ok_all e op x rs ids c : rms_agree e -> snd (over e op x ids rs tx_ok c) = tx_ok.
Proof. intros G. apply over_good. exact (agrees_tx e G). Qed.
Lemma end_all_ok e op t c c' k : rms_agree e -> end_all e op t c = (c', k) -> k = tx_ok.
Proof. intros G. unfold end_all. destruct (all c) as [|r rs]; [intros [= <- <-]; reflexivity|]. intros H. pose proof (over_ok_all e op (x_id (t_id t)) (r :: rs) (t_inv t) c G) as O. rewrite H in O. exact O. Qed.

Lemma commit_tx_reaches e t c c' k : rms_agree e -> incl (t_inv t) (all c) -> commit_tx e t c = (c', k) ->
  exists evs, since c c' evs /\ forall r, In r (t_inv t) -> exists ev, In ev evs /\ commits (x_id (t_id t)) r ev.
Proof.
  intros G I. unfold commit_tx. destruct (end_all e EndSuccess t c) as [c1 code] eqn:E. pose proof (end_all_ok _ _ _ _ _ _ G E) as ->. apply end_all_grow in E. destruct E as (evs&->&_). cbn [tx_eqb negb].
  change (negb (tx_eqb tx_ok tx_ok)) with false. cbn iota. destruct (local t && Nat.leb (length (t_inv t)) 1) eqn:L.
  - apply andb_true_iff in L. destruct L as [_ L]. destruct (t_inv t) as [|r [|r2 q]]; [|..|discriminate L].
    + intros [= <- <-]. exists evs. split; [reflexivity|intros r []].
    + unfold rm_commit. change (all (grow evs c)) with (all c). rewrite (proj2 (mem_in r (all c)) (I r (or_introl eq_refl))). unfold rm. intros [= <- <-]. rewrite log_grow, grow_grow. eexists. split; [reflexivity|].
      intros r' [<-|[]]. eexists. split; [apply in_app_iff; right; left; reflexivity|]. left. eexists. reflexivity.
  - destruct (e_tm e _) as [st kk]. rewrite log_grow, grow_grow. set (ev := TmCommit _ _ _ _).
    assert (X : forall evs', (forall y, In y (evs ++ [ev]) -> In y evs') -> forall r, In r (t_inv t) -> exists ev, In ev evs' /\ commits (x_id (t_id t)) r ev).
    { intros evs' S r Ir. exists ev. split; [apply S, in_app_iff; right; left; reflexivity|]. right. eexists. eexists. eexists. split; [reflexivity|exact Ir]. }
    destruct st; [destruct (c_ret _)|..]; intros [= <- <-]; rewrite ?log_grow, ?grow_grow; eexists; (split; [reflexivity|]); apply X; intros y Iy; auto; apply in_app_iff; left; exact Iy.
Qed.

Lemma rollback_each_reaches e t rs : forall c c' code k, rollback_each e t rs code c = (c', k) ->
  exists evs, since c c' evs /\ forall r, In r rs -> In r (all c) -> exists ev, In ev evs /\ rolls_back (x_id (t_id t)) r ev.
Proof.
  induction rs as [|r rs IH]; intros c c' code k; cbn; [intros [= <- <-]; exists []; split; [apply since_nil|intros r []]|].
  unfold rm_rollback. destruct (mem r (all c)) eqn:M; cbn; intros H; apply IH in H; destruct H as (evs&S&R).
  - exists (Xa RollbackRm r (x_id (t_id t)) (e_xa e (c_log c)) :: evs). split; [unfold since in *; rewrite S; cbn; rewrite <- app_assoc; reflexivity|]. intros r' [<-|I] A0.
    + eexists. split; [left; reflexivity|]. left. eexists. reflexivity.
    + destruct (R r' I A0) as (ev&Iv&Rv). exists ev. split; [right; exact Iv|exact Rv].
  - exists evs. split; [exact S|]. intros r' [<-|I] A0; [apply mem_out in M; contradiction|exact (R r' I A0)].
Qed.
Lemma sort_unique_in l z : In z (sort_unique l) <-> In z l.
Proof. unfold sort_unique. induction l as [|r l IH]; cbn; [tauto|]. rewrite insert_sorted, IH. intuition. Qed.

Lemma rollback_tx_reaches e t c c' k : rms_agree e -> incl (t_inv t) (all c) -> rollback_tx e t c = (c', k) ->
  exists evs, since c c' evs /\ forall r, In r (t_inv t) -> exists ev, In ev evs /\ rolls_back (x_id (t_id t)) r ev.
Proof.
  intros G I. unfold rollback_tx. destruct (end_all e EndSuccess t c) as [c1 code] eqn:E. pose proof (end_all_ok _ _ _ _ _ _ G E) as ->. apply end_all_grow in E. destruct E as (evs&->&_).
  change (negb (tx_eqb tx_ok tx_ok)) with false. cbn iota. destruct (local t).
  - intros H. apply rollback_each_reaches in H. destruct H as (ev2&S&R). exists (evs ++ ev2). split; [unfold since in *; rewrite S; cbn; rewrite app_assoc; reflexivity|].
    intros r Ir. destruct (R r) as (ev&Iv&Rv); [apply sort_unique_in, in_app_iff; left; exact Ir|apply I; exact Ir|]. exists ev. split; [apply in_app_iff; right; exact Iv|exact Rv].
  - intros [= <- <-]. rewrite log_grow, grow_grow. eexists. split; [reflexivity|]. intros r Ir. eexists. split; [apply in_app_iff; right; left; reflexivity|]. right. eexists. eexists. split; [reflexivity|exact Ir].
Qed.

(* what is involved is known *)
Definition known_inv (c : ctx) : Prop := (forall t, In t (c_txs c) -> incl (t_inv t) (all c)) /\ incl (t_inv (c_empty c)) (all c).
Lemma add_unique_incl rs l bound : incl rs bound -> incl l bound -> incl (fold_left (fun l r => add_unique r l) rs l) bound.
Proof.
  revert l. induction rs as [|r rs IH]; intros l A0 B; cbn; [exact B|]. apply IH; [intros z I; apply A0; right; exact I|]. unfold add_unique. destruct (mem r l); [exact B|].
  intros z I. apply in_app_iff in I. destruct I as [I|[<-|[]]]; [exact (B z I)|apply A0; left; reflexivity].
Qed.
Lemma involve_incl rs t bound : incl rs bound -> incl (t_inv t) bound -> incl (t_inv (involve rs t)) bound.
Proof. intros A0 B. unfold involve; cbn. apply add_unique_incl; assumption. Qed.

Lemma known_set_current t c : known_inv c -> incl (t_inv t) (all c) -> known_inv (set_current t c).
Proof.
  intros [K E] I. unfold set_current. destruct (split_last (c_txs c)) as [[l u]|] eqn:S; [|split; assumption]. apply split_last_some in S. destruct (t_susp u); [split; assumption|].
  split; [|exact E]. intros v Iv. cbn in Iv. apply in_app_iff in Iv. destruct Iv as [Iv|[<-|[]]]; [|exact I]. apply K. rewrite S. apply in_app_iff. left. exact Iv.
Qed.
Lemma known_current c : known_inv c -> incl (t_inv (current c)) (all c).
Proof.
  intros [K E]. unfold current. destruct (split_last (c_txs c)) as [[l u]|] eqn:S; [|exact E]. apply split_last_some in S. destruct (t_susp u); [exact E|]. apply K. rewrite S. apply in_app_iff. right. left. reflexivity.
Qed.
Lemma begin_fixed e c c' k : begin e c = (c', k) -> forall r, In r (all c) <-> In r (all c').
Proof.
  assert (BN : forall c0 c' k, begin_new e c0 = (c', k) -> forall r, In r (all c0) <-> In r (all c')).
  { clear. intros c0 c' k. unfold begin_new. destruct (try_start _ _ _ _) as [[c1 good] bad] eqn:E. apply try_start_grow in E. destruct E as [(evs&->&_) P]. destruct bad; intros [= <- <-] r; [reflexivity|].
    destruct (end_each_grow e (c_next c0) good (grow evs (w_next (c_next c0 + 1) c0))) as (ev2&->&_). unfold all; cbn. rewrite !in_app_iff. rewrite app_nil_r in * || idtac.
    assert (Q : In r (c_fixed c0) <-> In r (good ++ z :: bad)) by (split; apply Permutation_in; [exact P|apply Permutation_sym; exact P]). rewrite Q. rewrite in_app_iff. cbn. tauto. }
  unfold begin. destruct (negb (is_null (t_id (current c)))).
  - destruct (c_ctl c); try (intros [= <- <-] r; reflexivity). destruct (end_all e EndSuspend (current c) c) as [c1 code] eqn:E. apply end_all_grow in E. destruct E as (evs&->&_). destruct (tx_eqb code tx_ok); [|intros [= <- <-] r; reflexivity].
    intros H r. apply (BN _ _ _ H r).
  - destruct (t_dyn (current c)); [apply BN|intros [= <- <-] r; reflexivity].
Qed.
Lemma known_begin e c c' k : known_inv c -> begin e c = (c', k) -> known_inv c'.
Proof.
  intros [K E] H. pose proof (begin_fixed _ _ _ _ H) as FX. assert (S : forall l, incl l (all c) -> incl l (all c')) by (intros l L r I; apply FX, L, I).
  apply begin_spec in H. destruct H as [[_ (evs&->)]|[_ (evs&fx&n&->&_)]].
  - split; [|exact E]. intros t I. cbn in I. apply in_app_iff in I. destruct I as [I|[<-|[]]]; [exact (K t I)|]. change (all (grow evs _)) with (all c). apply involve_incl; [|intros r []]. intros r I. unfold all. apply in_app_iff. right. exact I.
  - split; [intros t I; apply S, K, I|apply S, E].
Qed.
Lemma known_continuation e code c c' k : known_inv c -> empty_ok c -> continuation e code c = (c', k) -> known_inv c'.
Proof.
  intros K EO H. apply (continuation_spec e code c c' k EO) in H. destruct (c_ctl c).
  - destruct H as [-> _]. exact K.
  - destruct H as (k'&H&_). exact (known_begin _ _ _ _ K H).
  - destruct H as [(_&->&_)|(l&t&evs&E&_&_&->&_)]; [exact K|]. destruct K as [K EM]. split; [|exact EM]. intros u I. cbn in I. change (all (grow evs _)) with (all c). apply in_app_iff in I. destruct I as [I|[<-|[]]].
    + apply K. rewrite E. apply in_app_iff. left. exact I.
    + apply involve_incl; [apply incl_refl|]. apply K. rewrite E. apply in_app_iff. right. left. reflexivity.
Qed.
Lemma known_less c l t : known_inv c -> c_txs c = l ++ [t] -> known_inv (w_txs l c).
Proof. intros [K E] S. split; [|exact E]. intros u I. apply K. rewrite S. apply in_app_iff. left. exact I. Qed.
Lemma fixed_incl c : incl (c_fixed c) (all c).
Proof. intros r I. unfold all. apply in_app_iff. right. exact I. Qed.

Lemma step_known e i c : empty_ok c -> known_inv c -> known_inv (fst (step e i c)).
Proof.
  intros EO KI. pose proof KI as [K E0]. destruct i; cbn [step]; unfold tx_result; cbn [fst].
  - destruct (begin e c) as [c' k] eqn:E. exact (known_begin _ _ _ _ KI E).
  - unfold commit. destruct (may_commit (current c)); [|exact KI]. destruct (split_last (c_txs c)) as [[l t]|] eqn:S; [|exact KI]. apply split_last_some in S.
    destruct (commit_tx e t (w_txs l c)) as [c1 code] eqn:E. apply commit_tx_grow in E. destruct E as (evs&->&_). destruct (continuation e code _) as [c' k] eqn:E2.
    exact (known_continuation _ _ _ _ _ (known_less c l t KI S : known_inv (grow evs (w_txs l c))) EO E2).
  - unfold rollback. destruct (may_rollback (current c)); [|exact KI]. destruct (split_last (c_txs c)) as [[l t]|] eqn:S; [|exact KI]. apply split_last_some in S.
    destruct (rollback_tx e t (w_txs l c)) as [c1 code] eqn:E. apply rollback_tx_grow in E. destruct E as (evs&->&_). destruct (continuation e code _) as [c' k] eqn:E2.
    exact (known_continuation _ _ _ _ _ (known_less c l t KI S : known_inv (grow evs (w_txs l c))) EO E2).
  - unfold suspend. destruct (negb given); [exact KI|]. destruct (is_null (t_id (current c))); [exact KI|]. destruct (end_all e EndSuspend _ _) as [c1 code] eqn:E. apply end_all_grow in E. destruct E as (evs&->&_).
    assert (X : known_inv (grow evs (set_current (w_susp true (current c)) c))) by (apply (known_set_current _ c KI); exact (known_current c KI)). destruct (tx_eqb code tx_ok); exact X.
  - unfold resume. destruct x as [x|]; [|exact KI]. destruct (x =? 0); [exact KI|]. destruct (negb _ && negb _); [exact KI|]. destruct (t_dyn (current c)); [|exact KI].
    destruct (split_at x (c_txs c)) as [[[a t] b]|] eqn:S; [|exact KI]. apply split_at_some in S. destruct S as (S&_&_). destruct (negb (t_susp t)); [exact KI|].
    destruct (start_these _ _ _ _ _) as [[c1 t1] code] eqn:E. apply start_these_grow in E. destruct E as [(evs&->&_) ->].
    assert (T1 : incl (t_inv (involve (c_fixed c) (w_susp false t))) (all c)). { apply involve_incl; [apply fixed_incl|]. change (incl (t_inv t) (all c)). apply K. rewrite S. apply in_app_iff. right. left. reflexivity. }
    assert (AB : forall u, In u a \/ In u b -> incl (t_inv u) (all c)). { intros u I. apply K. rewrite S. apply in_app_iff. cbn. tauto. }
    destruct (tx_eqb code tx_ok); (split; [|exact E0]); intros u I; cbn in I; rewrite !in_app_iff in I; cbn in I; change (all (fst (w_txs _ (grow evs c), tx_ok))) with (all c) || idtac.
    + destruct I as [I|[I|[<-|[]]]]; [apply AB; auto|apply AB; auto|exact T1].
    + destruct I as [I|[<-|I]]; [apply AB; auto|exact T1|apply AB; auto].
  - exact KI.
  - exact KI.
  - exact KI.
  - destruct (is_null (t_id (current c))); [exact KI|]. apply known_set_current; [exact KI|exact (known_current c KI)].
  - split; [|exact E0]. cbn. assert (X : forall l, (forall t, In t l -> incl (t_inv t) (all c)) -> forall t, In t (update_first corr s l) -> incl (t_inv t) (all c)).
    { induction l as [|u l IH]; cbn; intros B t I; [destruct I|]. destruct (mem corr (t_pend u)).
      - destruct I as [<-|I]; [|apply B; right; exact I]. destruct (t_state u <? s); cbn; apply B; left; reflexivity.
      - destruct I as [<-|I]; [apply B; left; reflexivity|]. apply IH; [|exact I]. intros v Iv. apply B. right. exact Iv. }
    exact (X _ K).
  - destruct (is_null (t_id (current c))); [exact KI|]. apply known_set_current; [exact KI|exact (known_current c KI)].
  - unfold register. destruct (mem r (c_dynamic c)) eqn:M; cbn [negb]; [|exact KI]. apply mem_in in M. assert (R : incl [r] (all c)) by (intros z [<-|[]]; unfold all; apply in_app_iff; left; exact M).
    pose proof (known_current c KI) as KC. destruct (mem r (t_dyn (current c))); [exact KI|]. destruct (is_null _); [apply known_set_current; [exact KI|exact KC]|].
    destruct (mem r _); [apply known_set_current; [exact KI|exact KC]|]. destruct (local _); cbn [fst].
    + apply known_set_current; [exact KI|]. apply involve_incl; [exact R|exact KC].
    + apply known_set_current; [exact KI|]. apply involve_incl; [exact R|exact KC].
  - unfold unregister. destruct (negb _); [exact KI|]. destruct (mem r _); [|exact KI]. apply known_set_current; [exact KI|exact (known_current c KI)].
  - unfold join. destruct (is_null t).
    + split; [|exact E0]. intros u I. cbn in I. apply in_app_iff in I. destruct I as [I|[<-|[]]]; [exact (K u I)|intros r []].
    + destruct (join_these _ _ _ _) as [[c1 t1] code] eqn:E. apply join_these_grow in E. destruct E as [(evs&->) ->]. split; [|exact E0]. intros u I. cbn in I. apply in_app_iff in I. destruct I as [I|[<-|[]]]; [exact (K u I)|].
      apply involve_incl; [exact (fixed_incl c)|intros r []].
  - unfold start. destruct (start_these _ _ _ _ _) as [[c1 t1] code] eqn:E. apply start_these_grow in E. destruct E as [(evs&->&_) ->]. destruct (tx_eqb code tx_ok); (split; [|exact E0]); intros u I; cbn in I; [|exact (K u I)].
    apply in_app_iff in I. destruct I as [I|[<-|[]]]; [exact (K u I)|]. apply involve_incl; [exact (fixed_incl c)|intros r []].
  - unfold branch. destruct (is_null t).
    + split; [|exact E0]. intros u I. cbn in I. apply in_app_iff in I. destruct I as [I|[<-|[]]]; [exact (K u I)|intros r []].
    + set (c0 := match c_fixed c with [] => _ | _ => _ end).
      assert (Y : all c0 = all c /\ c_txs c0 = c_txs c /\ c_empty c0 = c_empty c) by (unfold c0, all; destruct (c_fixed c) eqn:FX; cbn; rewrite FX; auto). destruct Y as (Y1&Y2&Y3).
      destruct (start_these _ _ _ _ c0) as [[c1 t1] code] eqn:E. apply start_these_grow in E. destruct E as [(evs&->&_) ->]. cbn [fst].
      split; [|cbn [w_txs grow c_empty]; rewrite Y3; change (incl (t_inv (c_empty c)) (all c0)); rewrite Y1; exact E0].
      intros u I. cbn [w_txs grow c_txs] in I. rewrite Y2 in I. change (incl (t_inv u) (all c0)). rewrite Y1. apply in_app_iff in I. destruct I as [I|[<-|[]]]; [exact (K u I)|].
      apply involve_incl; [exact (fixed_incl c)|intros r []].
  - destruct (finalize e do_commit c) as [c1 s] eqn:E. apply finalize_grow in E. destruct E as (evs&->&_). split; [intros t []|exact E0].
Qed.
Lemma reach_known e d f c : reach e d f c -> known_inv c.
Proof. apply reach_ind; [split; [intros t []|intros r []]|]. intros c0 i R H. apply step_known; [exact (reach_empty e d f c0 R)|exact H]. Qed.

(* ------------------------------------------------------------------ commit and rollback, as calls *)

Lemma since_trans a b c x y : since a b x -> since b c y -> since a c (x ++ y).
Proof. unfold since. intros H K. rewrite K, H, app_assoc. reflexivity. Qed.

Definition said_commit (x : Z) (ev : event) : Prop := plain ev \/ (some_commit x ev /\ forall y, ~ some_rollback y ev).
Definition said_rollback (x : Z) (ev : event) : Prop := plain ev \/ (some_rollback x ev /\ forall y, ~ some_commit y ev).
Lemma is_commit_said x ev : is_commit x ev -> said_commit x ev.
Proof. intros H. right. split; [exact H|]. intros y [(r&k&E)|(rs&k&E)]; destruct H as [(r'&k'&E')|(rs'&st'&k'&E')]; congruence. Qed.
Lemma is_rollback_said x ev : is_rollback x ev -> said_rollback x ev.
Proof. intros H. right. split; [exact H|]. intros y [(r&k&E)|(rs&st&k&E)]; destruct H as [(r'&k'&E')|(rs'&k'&E')]; congruence. Qed.
Lemma follow_plain x ev : follow_up x ev -> plain ev.
Proof. intros [(k&->)| ->]; apply plain_other; discriminate. Qed.

Lemma commit_tx_says e t c c' k : commit_tx e t c = (c', k) -> exists evs, since c c' evs /\ Forall (said_commit (x_id (t_id t))) evs.
Proof.
  intros H. apply commit_tx_grow in H. destruct H as (evs&->&F). exists evs. split; [reflexivity|]. eapply Forall_impl; [|exact F].
  intros ev [H|[H|H]]; [left; eapply plain_xa; [exact H|discriminate|discriminate]|apply is_commit_said; exact H|left; exact (follow_plain _ _ H)].
Qed.
Lemma rollback_tx_says e t c c' k : rollback_tx e t c = (c', k) -> exists evs, since c c' evs /\ Forall (said_rollback (x_id (t_id t))) evs.
Proof.
  intros H. apply rollback_tx_grow in H. destruct H as (evs&->&F). exists evs. split; [reflexivity|]. eapply Forall_impl; [|exact F].
  intros ev [H|H]; [left; eapply plain_xa; [exact H|discriminate|discriminate]|apply is_rollback_said; exact H].
Qed.

Lemma commit_call e c t c' r : empty_ok c -> committable c t -> step e Commit c = (c', r) ->
  exists l c1 code k, c_txs c = l ++ [t] /\ commit_tx e t (w_txs l c) = (c1, code) /\ continuation e code c1 = (c', k) /\ r = RTx k.
Proof.
  intros EO CM H. apply (committable_current c t EO) in CM. destruct CM as [M ->]. pose proof M as M'. apply may_commit_spec in M'. destruct M' as (N&_). destruct (current_real c EO N) as (l&E&S&_).
  cbn [step] in H. unfold tx_result in H. rewrite (commit_accepted e c (current c) l E S M) in H. destruct (commit_tx e (current c) (w_txs l c)) as [c1 code] eqn:CT. destruct (continuation e code c1) as [c2 k] eqn:CO.
  injection H as <- <-. exists l, c1, code, k. auto.
Qed.
Lemma rollback_call e c t c' r : empty_ok c -> rollbackable c t -> step e Rollback c = (c', r) ->
  exists l c1 code k, c_txs c = l ++ [t] /\ rollback_tx e t (w_txs l c) = (c1, code) /\ continuation e code c1 = (c', k) /\ r = RTx k.
Proof.
  intros EO CM H. apply (rollbackable_current c t EO) in CM. destruct CM as [M ->]. pose proof M as M'. apply may_rollback_spec in M'. destruct M' as (N&_). destruct (current_real c EO N) as (l&E&S&_).
  cbn [step] in H. unfold tx_result in H. rewrite (rollback_accepted e c (current c) l E S M) in H. destruct (rollback_tx e (current c) (w_txs l c)) as [c1 code] eqn:CT. destruct (continuation e code c1) as [c2 k] eqn:CO.
  injection H as <- <-. exists l, c1, code, k. auto.
Qed.

Lemma commit_effect e d f c t c' r : reach e d f c -> committable c t -> step e Commit c = (c', r) ->
  exists evs, since c c' evs /\ (forall x ev, In ev evs -> ~ some_rollback x ev) /\ (forall x ev, In ev evs -> some_commit x ev -> x = x_id (t_id t)) /\
    (rms_agree e -> forall rm, In rm (t_inv t) -> exists ev, In ev evs /\ commits (x_id (t_id t)) rm ev).
Proof.
  intros R CM H. pose proof (reach_empty _ _ _ _ R) as EO. pose proof (reach_known _ _ _ _ R) as KI. destruct (commit_call _ _ _ _ _ EO CM H) as (l&c1&code&k&E&CT&CO&_).
  pose proof (commit_tx_says _ _ _ _ _ CT) as (ev1&S1&F1). destruct (continuation_plain _ _ _ _ _ CO) as (ev2&S2&F2). exists (ev1 ++ ev2).
  split; [exact (since_trans c c1 c' _ _ S1 S2)|]. split; [|split].
  - intros x ev I. apply in_app_iff in I. destruct I as [I|I]; [|exact (proj2 (proj1 (Forall_forall _ _) F2 ev I x))]. destruct (proj1 (Forall_forall _ _) F1 ev I) as [P|[_ P]]; [exact (proj2 (P x))|exact (P x)].
  - intros x ev I SC. apply in_app_iff in I. destruct I as [I|I]; [|destruct (proj1 (proj1 (Forall_forall _ _) F2 ev I x) SC)]. destruct (proj1 (Forall_forall _ _) F1 ev I) as [P|[P _]]; [destruct (proj1 (P x) SC)|].
    destruct SC as [(r1&k1&E1)|(r1&s1&k1&E1)], P as [(r2&k2&E2)|(r2&s2&k2&E2)]; congruence.
  - intros G rm0 Ir. destruct (commit_tx_reaches e t (w_txs l c) c1 code G) as (ev1'&S1'&RE); [|exact CT|].
    + change (all (w_txs l c)) with (all c). apply KI. rewrite E. apply in_app_iff. right. left. reflexivity.
    + assert (EQ : ev1' = ev1) by (unfold since in *; rewrite S1' in S1; apply app_inv_head in S1; exact S1). subst ev1'. destruct (RE rm0 Ir) as (ev&I&C). exists ev. split; [apply in_app_iff; left; exact I|exact C].
Qed.
Lemma rollback_effect e d f c t c' r : reach e d f c -> rollbackable c t -> step e Rollback c = (c', r) ->
  exists evs, since c c' evs /\ (forall x ev, In ev evs -> ~ some_commit x ev) /\ (forall x ev, In ev evs -> some_rollback x ev -> x = x_id (t_id t)) /\
    (rms_agree e -> forall rm, In rm (t_inv t) -> exists ev, In ev evs /\ rolls_back (x_id (t_id t)) rm ev).
Proof.
  intros R CM H. pose proof (reach_empty _ _ _ _ R) as EO. pose proof (reach_known _ _ _ _ R) as KI. destruct (rollback_call _ _ _ _ _ EO CM H) as (l&c1&code&k&E&CT&CO&_).
  pose proof (rollback_tx_says _ _ _ _ _ CT) as (ev1&S1&F1). destruct (continuation_plain _ _ _ _ _ CO) as (ev2&S2&F2). exists (ev1 ++ ev2).
  split; [exact (since_trans c c1 c' _ _ S1 S2)|]. split; [|split].
  - intros x ev I. apply in_app_iff in I. destruct I as [I|I]; [|exact (proj1 (proj1 (Forall_forall _ _) F2 ev I x))]. destruct (proj1 (Forall_forall _ _) F1 ev I) as [P|[_ P]]; [exact (proj1 (P x))|exact (P x)].
  - intros x ev I SC. apply in_app_iff in I. destruct I as [I|I]; [|destruct (proj2 (proj1 (Forall_forall _ _) F2 ev I x) SC)]. destruct (proj1 (Forall_forall _ _) F1 ev I) as [P|[P _]]; [destruct (proj2 (P x) SC)|].
    destruct SC as [(r1&k1&E1)|(r1&k1&E1)], P as [(r2&k2&E2)|(r2&k2&E2)]; congruence.
  - intros G rm0 Ir. destruct (rollback_tx_reaches e t (w_txs l c) c1 code G) as (ev1'&S1'&RE); [|exact CT|].
    + change (all (w_txs l c)) with (all c). apply KI. rewrite E. apply in_app_iff. right. left. reflexivity.
    + assert (EQ : ev1' = ev1) by (unfold since in *; rewrite S1' in S1; apply app_inv_head in S1; exact S1). subst ev1'. destruct (RE rm0 Ir) as (ev&I&C). exists ev. split; [apply in_app_iff; left; exact I|exact C].
Qed.

(* ------------------------------------------------------------------ the result tells the truth *)


Lemma commit_tx_truth e t c c' : commit_tx e t c = (c', tx_ok) -> exists evs, since c c' evs /\ backed c t evs.
Proof.
  unfold commit_tx. destruct (end_all e EndSuccess t c) as [c1 code] eqn:E. apply end_all_grow in E. destruct E as (evs&->&_). destruct (tx_eqb code tx_ok) eqn:K; cbn [negb]; [|intros [= <- ->]; discriminate K].
  destruct (local t && Nat.leb (length (t_inv t)) 1) eqn:L.
  - apply andb_true_iff in L. destruct L as [LO L]. unfold local in LO. apply andb_true_iff in LO. destruct LO as [_ LX]. apply negb_true_iff in LX. destruct (t_inv t) as [|r [|r2 q]] eqn:TI; [|..|discriminate L].
    + intros [= <-]. exists evs. split; [reflexivity|left; auto].
    + unfold rm_commit. destruct (mem r _); [|discriminate]. unfold rm. intros [= <- T]. rewrite log_grow, grow_grow. eexists. split; [reflexivity|]. right. left. exists r. eexists.
      split; [exact TI|]. split; [apply in_app_iff; right; left; reflexivity|]. apply to_tx_ok. exact T.
  - destruct (e_tm e _) as [st kk] eqn:TM. rewrite log_grow, grow_grow. destruct st; [destruct (c_ret _) eqn:CR|..].
    + intros [= <- T]. rewrite log_grow, grow_grow. eexists. split; [reflexivity|]. right. right. right. left. eexists. split; [apply in_app_iff; left; apply in_app_iff; right; left; reflexivity|].
      apply in_app_iff. right. left. f_equal. exact T.
    + intros [= <- ->]. rewrite log_grow, grow_grow. eexists. split; [reflexivity|]. right. right. right. right. split; [exact CR|]. apply in_app_iff. left. apply in_app_iff. right. left. reflexivity.
    + intros [= <- ->]. eexists. split; [reflexivity|]. right. right. left. apply in_app_iff. right. left. reflexivity.
    + intros H; discriminate H.
Qed.
Lemma commit_truth e d f c t c' : reach e d f c -> committable c t -> step e Commit c = (c', RTx tx_ok) -> exists evs, since c c' evs /\ backed c t evs.
Proof.
  intros R CM H. destruct (commit_call _ _ _ _ _ (reach_empty _ _ _ _ R) CM H) as (l&c1&code&k&E&CT&CO&[= <-]).
  assert (OK : code = tx_ok).
  { unfold continuation in CO. destruct (c_ctl c1); [congruence|..].
    - destruct (begin e c1) as [c2 k2]. injection CO as _ CO. apply tx_add_ok in CO. tauto.
    - destruct (is_null _); [congruence|]. destruct (start_these _ _ _ _ _) as [[c2 t2] k2]. injection CO as _ CO. apply tx_add_ok in CO. tauto. }
  subst code. apply commit_tx_truth in CT. destruct CT as (ev1&S1&B). destruct (continuation_plain _ _ _ _ _ CO) as (ev2&S2&_). exists (ev1 ++ ev2). split; [exact (since_trans c c1 c' _ _ S1 S2)|].
  assert (M : forall ev, In ev ev1 -> In ev (ev1 ++ ev2)) by (intros ev I; apply in_app_iff; left; exact I).
  destruct B as [B|[(r&k&B1&B2&B3)|[B|[(k&B1&B2)|[B1 B2]]]]]; [left; exact B|right; left; exists r, k; auto|right; right; left; auto|right; right; right; left; exists k; auto|right; right; right; right; auto].
Qed.

(* a rollback that the transaction manager decided *)
Lemma commit_tx_rolled e t c c' k : commit_tx e t c = (c', k) -> forall evs rs kk, since c c' evs -> In (TmCommit (x_id (t_id t)) rs SRollback kk) evs -> k = tx_rollback.
Proof.
  unfold commit_tx. destruct (end_all e EndSuccess t c) as [c1 code] eqn:E. apply end_all_grow in E. destruct E as (ev0&->&F).
  assert (NO : forall rs kk, ~ In (TmCommit (x_id (t_id t)) rs SRollback kk) ev0). { intros rs kk I. destruct (proj1 (Forall_forall _ _) F _ I) as (r&k0&X). discriminate. }
  assert (SAME : forall evs evs' (cc : ctx), since c cc evs -> c_log cc = c_log c ++ evs' -> evs = evs') by (intros evs evs' cc S1 S2; unfold since in S1; rewrite S1 in S2; apply app_inv_head in S2; exact S2).
  destruct (negb (tx_eqb code tx_ok)).
  - intros [= <- <-] evs rs kk S I. rewrite (SAME _ ev0 _ S eq_refl) in I. destruct (NO _ _ I).
  - destruct (local t && Nat.leb (length (t_inv t)) 1).
    + destruct (t_inv t) as [|r q].
      * intros [= <- <-] evs rs kk S I. rewrite (SAME _ ev0 _ S eq_refl) in I. destruct (NO _ _ I).
      * unfold rm_commit. destruct (mem r _).
        -- unfold rm. intros [= <- <-] evs rs kk S I. rewrite log_grow, grow_grow in S. rewrite (SAME _ _ _ S eq_refl) in I. apply in_app_iff in I. destruct I as [I|[I|[]]]; [destruct (NO _ _ I)|discriminate].
        -- intros [= <- <-] evs rs kk S I. rewrite (SAME _ ev0 _ S eq_refl) in I. destruct (NO _ _ I).
    + destruct (e_tm e _) as [st k0]. rewrite log_grow, grow_grow. destruct st; [destruct (c_ret _)|..]; intros [= <- <-] evs rs kk S I; rewrite ?log_grow, ?grow_grow in S; rewrite (SAME _ _ _ S eq_refl) in I; rewrite ?in_app_iff in I; cbn in I;
      try reflexivity; exfalso; repeat (destruct I as [I|I]); try discriminate I; try contradiction; try (destruct (NO _ _ I)).
Qed.
Lemma commit_rolled_back e d f c t c' k evs rs kk : reach e d f c -> committable c t -> c_ctl c = Unchained -> step e Commit c = (c', RTx k) -> since c c' evs -> In (TmCommit (x_id (t_id t)) rs SRollback kk) evs -> k = tx_rollback.
Proof.
  intros R CM U H S I. destruct (commit_call _ _ _ _ _ (reach_empty _ _ _ _ R) CM H) as (l&c1&code&k0&E&CT&CO&[= <-]).
  pose proof (commit_tx_grow _ _ _ _ _ CT) as (ev&G&_). subst c1. unfold continuation in CO. change (c_ctl (grow ev (w_txs l c))) with (c_ctl c) in CO. rewrite U in CO. injection CO as <- <-.
  exact (commit_tx_rolled _ _ _ _ _ CT _ _ _ S I).
Qed.

(* ------------------------------------------------------------------ chained mode *)

Lemma end_all_ctl e op t c m : end_all e op t (w_ctl m c) = (w_ctl m (fst (end_all e op t c)), snd (end_all e op t c)).
Proof.
  unfold end_all. change (all (w_ctl m c)) with (all c). destruct (all c) as [|r0 rs]; [reflexivity|]. generalize (r0 :: rs) as bound. intros bound. generalize tx_ok as code. revert c. generalize (t_inv t) as ids.
  induction ids as [|r ids IH]; intros c code; cbn; [reflexivity|]. destruct (mem r bound); [|apply IH]. rewrite <- IH. reflexivity.
Qed.
Lemma commit_tx_ctl e t c m : commit_tx e t (w_ctl m c) = (w_ctl m (fst (commit_tx e t c)), snd (commit_tx e t c)).
Proof.
  unfold commit_tx. rewrite end_all_ctl. destruct (end_all e EndSuccess t c) as [c1 code]. cbn [fst snd]. destruct (negb (tx_eqb code tx_ok)); [reflexivity|].
  destruct (local t && Nat.leb (length (t_inv t)) 1).
  - destruct (t_inv t) as [|r q]; [reflexivity|]. unfold rm_commit, rm. change (all (w_ctl m c1)) with (all c1). destruct (mem r (all c1)); reflexivity.
  - change (c_log (w_ctl m c1)) with (c_log c1). destruct (e_tm e (c_log c1)) as [st k]. destruct st; try reflexivity. change (c_ret (log (TmCommit (x_id (t_id t)) (t_inv t) SPrepare k) (w_ctl m c1))) with (c_ret (log (TmCommit (x_id (t_id t)) (t_inv t) SPrepare k) c1)).
    destruct (c_ret _); reflexivity.
Qed.

Lemma chained_result e d f c t c' k u : reach e d f c -> c_ctl c = Chained -> committable c t -> step e Commit c = (c', RTx k) -> snd (step e Commit (w_ctl Unchained c)) = RTx u ->
  (length (held c') = length (held c) -> k = u) /\ (length (held c') <> length (held c) -> exists b, k = tx_add u b /\ (b = tx_error \/ b = tx_outside \/ b = tx_protocol)).
Proof.
  intros R CH CM H U. pose proof (reach_empty _ _ _ _ R) as EO. destruct (commit_call _ _ _ _ _ EO CM H) as (l&c1&code&k0&E&CT&CO&[= <-]).
  assert (CM' : committable (w_ctl Unchained c) t) by exact CM. destruct (step e Commit (w_ctl Unchained c)) as [cu ru] eqn:HU. cbn in U. subst ru.
  destruct (commit_call _ _ _ _ _ (EO : empty_ok (w_ctl Unchained c)) CM' HU) as (l'&c1'&code'&k'&E'&CT'&CO'&[= <-]).
  assert (LL : l' = l) by (cbn in E'; rewrite E in E'; apply app_inj_tail in E'; destruct E'; auto). subst l'.
  change (w_txs l (w_ctl Unchained c)) with (w_ctl Unchained (w_txs l c)) in CT'. rewrite commit_tx_ctl, CT in CT'. injection CT' as <- <-. cbn in CO'. injection CO' as _ <-.
  pose proof (commit_tx_grow _ _ _ _ _ CT) as (ev&G&_). unfold continuation in CO. rewrite G in CO at 1. change (c_ctl (grow ev (w_txs l c))) with (c_ctl c) in CO. rewrite CH in CO.
  destruct (begin e c1) as [c2 k2] eqn:B. injection CO as <- <-. pose proof (begin_held _ _ _ _ B) as (new&HN&X).
  assert (LH : length (held c) = S (length (held c1))). { rewrite G. unfold held. cbn. rewrite E, map_app, app_length. cbn. lia. }
  assert (LC : length (held c2) = (length (held c1) + length new)%nat) by (rewrite HN, app_length; reflexivity). destruct X as [[-> L1]|[N ->]].
  - split; [intros _; apply tx_add_ok_r|intros NE; lia].
  - split; [cbn in LC; lia|intros _]. exists k2. split; [reflexivity|]. clear -B N CH G. unfold begin in B. destruct (negb _).
    + rewrite G in B at 1. change (c_ctl (grow ev (w_txs l c))) with (c_ctl c) in B. rewrite CH in B. injection B as _ <-. auto.
    + destruct (t_dyn _); [|injection B as _ <-; auto]. apply begin_new_spec in B. destruct B as [[-> _]|[-> _]]; [contradiction|auto].
Qed.

(* ------------------------------------------------------------------ who is asked to commit, over a whole history *)

Definition no_commits (evs : list event) : Prop := forall ev x, In ev evs -> ~ some_commit x ev.
Lemma plain_no_commits evs : Forall plain evs -> no_commits evs.
Proof. intros F ev x I. exact (proj1 (proj1 (Forall_forall _ _) F ev I x)). Qed.
Lemma joined_plain x evs : Forall (fun ev => is_xa StartNew x ev \/ is_xa StartJoin x ev) evs -> Forall plain evs.
Proof. intros F. eapply Forall_impl; [|exact F]. intros ev [H|H]; eapply plain_xa; try exact H; discriminate. Qed.
Lemma join_these_plain e t rs c c' t1 k : join_these e t rs c = (c', t1, k) -> exists evs, c' = grow evs c /\ Forall plain evs.
Proof.
  unfold join_these. destruct rs as [|r rs]; [intros [= <- <- <-]; exists []; rewrite grow_nil; split; [reflexivity|constructor]|].
  destruct (join_each _ _ _ _ _ _) as [c1 code] eqn:E. intros [= <- <- <-]. apply join_each_grow in E. destruct E as (evs&->&F). rewrite log_grow, grow_grow. eexists. split; [reflexivity|].
  constructor; [apply plain_other; discriminate|exact (joined_plain _ _ F)].
Qed.


Lemma step_commits e i c : empty_ok c -> exists evs, since c (fst (step e i c)) evs /\ forall ev x, In ev evs -> some_commit x ev -> commit_cause i c x.
Proof.
  intros EO.
  assert (SAME : forall c', c_log c' = c_log c -> exists evs, since c c' evs /\ forall ev x, In ev evs -> some_commit x ev -> commit_cause i c x).
  { intros c' L. exists []. split; [unfold since; rewrite app_nil_r; exact L|intros ev x []]. }
  assert (PL : forall c' evs, c_log c' = c_log c ++ evs -> Forall plain evs -> exists evs, since c c' evs /\ forall ev x, In ev evs -> some_commit x ev -> commit_cause i c x).
  { intros c' evs L P. exists evs. split; [exact L|]. intros ev x I SC. destruct (plain_no_commits evs P ev x I SC). }
  destruct i; cbn [step]; unfold tx_result; cbn [fst].
  - destruct (begin e c) as [c' k] eqn:E. apply begin_plain in E. destruct E as (evs&S&P). exact (PL c' evs S P).
  - destruct (may_commit (current c)) eqn:M; [|rewrite commit_refused by exact M; apply SAME; reflexivity]. assert (CM : committable c (current c)) by (apply committable_current; auto).
    destruct (step e Commit c) as [c' r] eqn:ST. destruct (commit_call _ _ _ _ _ EO CM ST) as (l&c1&code&k&E&CT&CO&_). cbn [step] in ST. unfold tx_result in ST. injection ST as <- _.
    pose proof (commit_tx_says _ _ _ _ _ CT) as (ev1&S1&F1). destruct (continuation_plain _ _ _ _ _ CO) as (ev2&S2&F2). exists (ev1 ++ ev2). split; [exact (since_trans c c1 _ _ _ S1 S2)|].
    intros ev x I SC. apply in_app_iff in I. destruct I as [I|I]; [|destruct (plain_no_commits _ F2 ev x I SC)]. left. split; [reflexivity|]. exists (current c). split; [exact CM|].
    destruct (proj1 (Forall_forall _ _) F1 ev I) as [P|[P _]]; [destruct (proj1 (P x) SC)|]. destruct SC as [(r1&k1&E1)|(r1&s1&k1&E1)], P as [(r2&k2&E2)|(r2&s2&k2&E2)]; congruence.
  - destruct (may_rollback (current c)) eqn:M; [|rewrite rollback_refused by exact M; apply SAME; reflexivity]. assert (CM : rollbackable c (current c)) by (apply rollbackable_current; auto).
    destruct (step e Rollback c) as [c' r] eqn:ST. destruct (rollback_call _ _ _ _ _ EO CM ST) as (l&c1&code&k&E&CT&CO&_). cbn [step] in ST. unfold tx_result in ST. injection ST as <- _.
    pose proof (rollback_tx_says _ _ _ _ _ CT) as (ev1&S1&F1). destruct (continuation_plain _ _ _ _ _ CO) as (ev2&S2&F2). exists (ev1 ++ ev2). split; [exact (since_trans c c1 _ _ _ S1 S2)|].
    intros ev x I SC. exfalso. apply in_app_iff in I. destruct I as [I|I]; [|destruct (plain_no_commits _ F2 ev x I SC)]. destruct (proj1 (Forall_forall _ _) F1 ev I) as [P|[_ P]]; [exact (proj1 (P x) SC)|exact (P x SC)].
  - unfold suspend. destruct (negb given); [apply SAME; reflexivity|]. destruct (is_null (t_id (current c))); [apply SAME; reflexivity|]. destruct (end_all e EndSuspend _ _) as [c1 code] eqn:E. apply end_all_grow in E. destruct E as (evs&->&F).
    destruct (tx_eqb code tx_ok); apply (PL _ evs); try (cbn; rewrite set_current_log; reflexivity); exact (plain_all _ _ _ F ltac:(discriminate) ltac:(discriminate)).
  - unfold resume. destruct x as [x|]; [|apply SAME; reflexivity]. destruct (x =? 0); [apply SAME; reflexivity|]. destruct (negb _ && negb _); [apply SAME; reflexivity|]. destruct (t_dyn (current c)); [|apply SAME; reflexivity].
    destruct (split_at x (c_txs c)) as [[[a t] b]|]; [|apply SAME; reflexivity]. destruct (negb (t_susp t)); [apply SAME; reflexivity|].
    destruct (start_these _ _ _ _ _) as [[c1 t1] code] eqn:E. apply start_these_grow in E. destruct E as [(evs&->&F) _]. destruct (tx_eqb code tx_ok); apply (PL _ evs); try reflexivity; exact (plain_all _ _ _ F ltac:(discriminate) ltac:(discriminate)).
  - apply SAME; reflexivity.
  - apply SAME; reflexivity.
  - apply SAME; reflexivity.
  - destruct (is_null _); [apply SAME; reflexivity|]. apply SAME. apply set_current_log.
  - apply SAME; reflexivity.
  - destruct (is_null _); [apply SAME; reflexivity|]. apply SAME. apply set_current_log.
  - unfold register. destruct (negb _); [apply SAME; reflexivity|]. destruct (mem r _); [apply SAME; reflexivity|]. destruct (is_null _); [apply SAME, set_current_log|]. destruct (mem r _); [apply SAME, set_current_log|].
    destruct (local _); [apply SAME, set_current_log|]. cbn [fst]. eapply PL; [rewrite set_current_log; reflexivity|]. constructor; [apply plain_other; discriminate|constructor].
  - unfold unregister. destruct (negb _); [apply SAME; reflexivity|]. destruct (mem r _); [apply SAME, set_current_log|apply SAME; reflexivity].
  - unfold join. destruct (is_null t); [apply SAME; reflexivity|]. destruct (join_these _ _ _ _) as [[c1 t1] code] eqn:E. apply join_these_plain in E. destruct E as (evs&->&P). apply (PL _ evs); [reflexivity|exact P].
  - unfold start. destruct (start_these _ _ _ _ _) as [[c1 t1] code] eqn:E. apply start_these_grow in E. destruct E as [(evs&->&F) _]. destruct (tx_eqb code tx_ok); apply (PL _ evs); try reflexivity; exact (plain_all _ _ _ F ltac:(discriminate) ltac:(discriminate)).
  - unfold branch. destruct (is_null t); [apply SAME; reflexivity|]. set (c0 := match c_fixed c with [] => _ | _ => _ end).
    assert (G0 : exists ev0, c_log c0 = c_log c ++ ev0 /\ Forall plain ev0) by (unfold c0; destruct (c_fixed c); [exists []; rewrite app_nil_r; auto|eexists; split; [reflexivity|constructor; [apply plain_other; discriminate|constructor]]]).
    destruct G0 as (ev0&G0&P0). destruct (start_these _ _ _ _ c0) as [[c1 t1] code] eqn:E. apply start_these_grow in E. destruct E as [(evs&->&F) _]. apply (PL _ (ev0 ++ evs)); [cbn; rewrite G0, app_assoc; reflexivity|].
    apply Forall_app. split; [exact P0|exact (plain_all _ _ _ F ltac:(discriminate) ltac:(discriminate))].
  - destruct (finalize e do_commit c) as [c' s] eqn:E. apply finalize_grow in E. destruct E as (evs&->&F). exists evs. split; [reflexivity|]. intros ev x I SC. right. destruct (proj1 (Forall_forall _ _) F ev I) as [(p&->)|[(t&It&H)|(t&It&O&H)]].
    + destruct SC as [(r1&k1&E1)|(r1&s1&k1&E1)]; discriminate.
    + destruct H as [H|[H|H]].
      * destruct (proj1 (plain_xa _ _ _ H ltac:(discriminate) ltac:(discriminate) x) SC).
      * destruct (proj1 (follow_plain _ _ H x) SC).
      * destruct (do_commit && (t_state t =? active)) eqn:B.
        -- apply andb_true_iff in B. destruct B as [-> B]. apply Z.eqb_eq in B. split; [reflexivity|]. apply filter_In in It. destruct It as [It O]. apply filter_In in It. destruct It as [It _]. exists t. split; [exact It|]. split; [apply Z.eqb_eq; exact O|]. split; [exact B|].
           destruct SC as [(r1&k1&E1)|(r1&s1&k1&E1)], H as [(r2&k2&E2)|(r2&s2&k2&E2)]; congruence.
        -- exfalso. destruct SC as [(r1&k1&E1)|(r1&s1&k1&E1)], H as [(r2&k2&E2)|(r2&k2&E2)]; congruence.
    + destruct (proj1 (plain_xa _ _ _ H ltac:(discriminate) ltac:(discriminate) x) SC).
Qed.

(* a transaction that must be rolled back, and is not joined again *)

Lemma doomed_sub x c c' : doomed x c -> c_next c <= c_next c' -> (forall t, In t (c_txs c') -> x_id (t_id t) <> x \/ exists u, In u (c_txs c) /\ t_id u = t_id t /\ t_state u <= t_state t) -> doomed x c'.
Proof. intros [L D] N S. split; [lia|]. intros t I E. destruct (S t I) as [X|(u&Iu&EI&ES)]; [contradiction|]. assert (Y : x_id (t_id u) = x) by congruence. specialize (D u Iu Y). lia. Qed.
Lemma begin_doomed e c c' k x : doomed x c -> begin e c = (c', k) -> doomed x c'.
Proof.
  intros D H. pose proof D as [L _]. apply begin_spec in H. destruct H as [[_ (evs&->)]|[_ (evs&fx&n&->&LN)]]; apply (doomed_sub x c _ D); cbn; try lia.
  - intros t I. apply in_app_iff in I. destruct I as [I|[<-|[]]]; [right; exists t; auto with zarith|left; cbn; lia].
  - intros t I. right. exists t. auto with zarith.
Qed.
Lemma continuation_doomed e code c c' k x : empty_ok c -> doomed x c -> continuation e code c = (c', k) -> doomed x c'.
Proof.
  intros EO D H. apply (continuation_spec e code c c' k EO) in H. destruct (c_ctl c).
  - destruct H as [-> _]. exact D.
  - destruct H as (k'&H&_). exact (begin_doomed _ _ _ _ _ D H).
  - destruct H as [(_&->&_)|(l&t&evs&E&_&_&->&_)]; [exact D|]. apply (doomed_sub x c _ D); [cbn; lia|]. intros u I. cbn in I. rewrite E. apply in_app_iff in I. destruct I as [I|[<-|[]]].
    + right. exists u. split; [apply in_app_iff; left; exact I|auto with zarith].
    + right. exists t. split; [apply in_app_iff; right; left; reflexivity|auto with zarith].
Qed.
Lemma set_current_doomed t c x : doomed x c -> t_id t = t_id (current c) -> t_state t = t_state (current c) -> doomed x (set_current t c).
Proof.
  intros D EI ES. unfold set_current, current in *. destruct (split_last (c_txs c)) as [[l u]|] eqn:S; [|exact D]. apply split_last_some in S. destruct (t_susp u); [exact D|].
  apply (doomed_sub x c _ D); [cbn; lia|]. intros v I. cbn in I. right. rewrite S. apply in_app_iff in I. destruct I as [I|[<-|[]]].
  - exists v. split; [apply in_app_iff; left; exact I|auto with zarith].
  - exists u. split; [apply in_app_iff; right; left; reflexivity|]. split; [congruence|rewrite ES; lia].
Qed.

Lemma step_doomed e i c x : empty_ok c -> x <> 0 -> doomed x c -> not_joined x i -> doomed x (fst (step e i c)).
Proof.
  intros EO NZ D NJ. pose proof D as [L DD]. destruct i; cbn [step]; unfold tx_result; cbn [fst].
  - destruct (begin e c) as [c' k] eqn:E. exact (begin_doomed _ _ _ _ _ D E).
  - unfold commit. destruct (may_commit (current c)); [|exact D]. destruct (split_last (c_txs c)) as [[l t]|] eqn:S; [|exact D]. apply split_last_some in S.
    destruct (commit_tx e t (w_txs l c)) as [c1 code] eqn:E. apply commit_tx_grow in E. destruct E as (evs&->&_). destruct (continuation e code _) as [c' k] eqn:E2.
    apply (continuation_doomed e code (grow evs (w_txs l c)) c' k x EO); [|exact E2]. apply (doomed_sub x c _ D); [cbn; lia|]. intros u I. right. exists u. rewrite S. split; [apply in_app_iff; left; exact I|auto with zarith].
  - unfold rollback. destruct (may_rollback (current c)); [|exact D]. destruct (split_last (c_txs c)) as [[l t]|] eqn:S; [|exact D]. apply split_last_some in S.
    destruct (rollback_tx e t (w_txs l c)) as [c1 code] eqn:E. apply rollback_tx_grow in E. destruct E as (evs&->&_). destruct (continuation e code _) as [c' k] eqn:E2.
    apply (continuation_doomed e code (grow evs (w_txs l c)) c' k x EO); [|exact E2]. apply (doomed_sub x c _ D); [cbn; lia|]. intros u I. right. exists u. rewrite S. split; [apply in_app_iff; left; exact I|auto with zarith].
  - unfold suspend. destruct (negb given); [exact D|]. destruct (is_null (t_id (current c))); [exact D|]. destruct (end_all e EndSuspend _ _) as [c1 code] eqn:E. apply end_all_grow in E. destruct E as (evs&->&_).
    assert (X : doomed x (grow evs (set_current (w_susp true (current c)) c))) by (apply (set_current_doomed _ c x D); reflexivity). destruct (tx_eqb code tx_ok); exact X.
  - unfold resume. destruct x0 as [y|]; [|exact D]. destruct (y =? 0); [exact D|]. destruct (negb _ && negb _); [exact D|]. destruct (t_dyn (current c)); [|exact D].
    destruct (split_at y (c_txs c)) as [[[a t] b]|] eqn:S; [|exact D]. apply split_at_some in S. destruct S as (S&_&_). destruct (negb (t_susp t)); [exact D|].
    destruct (start_these _ _ _ _ _) as [[c1 t1] code] eqn:E. apply start_these_grow in E. destruct E as [(evs&->&_) ->].
    destruct (tx_eqb code tx_ok); apply (doomed_sub x c _ D); cbn; try lia; intros u I; rewrite S; right; rewrite !in_app_iff in I; cbn in I.
    + destruct I as [I|[I|[<-|[]]]]; [exists u|exists u|exists t]; rewrite in_app_iff; cbn; auto 7 with zarith.
    + destruct I as [I|[<-|I]]; [exists u|exists t|exists u]; rewrite in_app_iff; cbn; auto 7 with zarith.
  - exact D.
  - exact D.
  - exact D.
  - destruct (is_null _); [exact D|]. apply set_current_doomed; [exact D|reflexivity|reflexivity].
  - apply (doomed_sub x c _ D); [cbn; lia|]. cbn. intros t I. right. revert I. generalize (c_txs c) as l. induction l as [|u l IH]; cbn; intros I; [destruct I|]. destruct (mem corr (t_pend u)).
    + destruct I as [<-|I]; [|exists t; auto with zarith]. exists u. split; [auto|]. destruct (t_state u <? s) eqn:LT; cbn; [apply Z.ltb_lt in LT|]; split; try reflexivity; lia.
    + destruct I as [<-|I]; [exists u; auto with zarith|]. destruct (IH I) as (v&Iv&EV&SV). exists v. auto.
  - destruct (is_null _); [exact D|]. apply set_current_doomed; [exact D|reflexivity|reflexivity].
  - unfold register. destruct (negb _); [exact D|]. destruct (mem r _); [exact D|]. destruct (is_null _); [apply set_current_doomed; [exact D|reflexivity|reflexivity]|]. destruct (mem r _); [apply set_current_doomed; [exact D|reflexivity|reflexivity]|].
    destruct (local _); cbn [fst]; apply set_current_doomed; try exact D; reflexivity.
  - unfold unregister. destruct (negb _); [exact D|]. destruct (mem r _); [apply set_current_doomed; [exact D|reflexivity|reflexivity]|exact D].
  - cbn in NJ. unfold join. destruct (is_null t).
    + apply (doomed_sub x c _ D); cbn; [lia|]. intros u I. apply in_app_iff in I. destruct I as [I|[<-|[]]]; [right; exists u; auto with zarith|left; exact NJ].
    + destruct (join_these _ _ _ _) as [[c1 t1] code] eqn:E. apply join_these_grow in E. destruct E as [(evs&->) ->]. apply (doomed_sub x c _ D); cbn; [lia|]. intros u I. apply in_app_iff in I. destruct I as [I|[<-|[]]]; [right; exists u; auto with zarith|left; exact NJ].
  - unfold start. destruct (start_these _ _ _ _ _) as [[c1 t1] code] eqn:E. apply start_these_grow in E. destruct E as [(evs&->&_) ->]. destruct (tx_eqb code tx_ok); apply (doomed_sub x c _ D); cbn; try lia; intros u I.
    + apply in_app_iff in I. destruct I as [I|[<-|[]]]; [right; exists u; auto with zarith|left; cbn; lia].
    + right. exists u. auto with zarith.
  - unfold branch. destruct (is_null t) eqn:NU.
    + apply (doomed_sub x c _ D); cbn; [lia|]. intros u I. apply in_app_iff in I. destruct I as [I|[<-|[]]]; [right; exists u; auto with zarith|]. left. cbn. apply is_null_spec in NU. rewrite NU. intros X. apply NZ. symmetry. exact X.
    + set (c0 := match c_fixed c with [] => _ | _ => _ end).
      assert (Y : c_next c0 = c_next c + 1 /\ c_txs c0 = c_txs c) by (unfold c0; destruct (c_fixed c); cbn; auto). destruct Y as (Y1&Y2).
      destruct (start_these _ _ _ _ c0) as [[c1 t1] code] eqn:E. apply start_these_grow in E. destruct E as [(evs&->&_) ->]. cbn [fst]. apply (doomed_sub x c _ D); cbn; [lia|]. rewrite Y2. intros u I.
      apply in_app_iff in I. destruct I as [I|[<-|[]]]; [right; exists u; auto with zarith|left; cbn; lia].
  - destruct (finalize e do_commit c) as [c1 s] eqn:E. apply finalize_grow in E. destruct E as (evs&->&_). apply (doomed_sub x c _ D); cbn; [lia|]. intros u [].
Qed.

Lemma never_committed e d f c x : reach e d f c -> x <> 0 -> doomed x c -> forall is, Forall (not_joined x) is -> exists evs, since c (fst (run e is c)) evs /\ forall ev, In ev evs -> ~ some_commit x ev.
Proof.
  intros R NZ D is. revert c R D. induction is as [|i is IH]; intros c R D F; [exists []; split; [apply since_nil|intros ev []]|]. inversion F as [|? ? NJ F']; subst. pose proof (reach_empty _ _ _ _ R) as EO.
  destruct (step_commits e i c EO) as (ev1&S1&C1). pose proof (step_doomed e i c x EO NZ D NJ) as D1. pose proof (reach_step e d f c i R) as R1.
  assert (N1 : forall ev, In ev ev1 -> ~ some_commit x ev).
  { intros ev I SC. destruct D as [_ DD]. destruct (C1 ev x I SC) as [(->&t&((l&E&_)&_&A0&_)&X)|(->&t&It&_&A0&X)].
    - assert (It : In t (c_txs c)) by (rewrite E; apply in_app_iff; right; left; reflexivity). specialize (DD t It X). rewrite A0 in DD. lia.
    - specialize (DD t It X). rewrite A0 in DD. lia. }
  cbn [run]. destruct (step e i c) as [c1 r]. cbn [fst] in *. destruct (IH c1 R1 D1 F') as (ev2&S2&N2). destruct (run e is c1) as [c2 h]. cbn [fst] in *. exists (ev1 ++ ev2). split; [exact (since_trans _ _ _ _ _ S1 S2)|].
  intros ev I. apply in_app_iff in I. destruct I as [I|I]; [exact (N1 ev I)|exact (N2 ev I)].
Qed.

(* ------------------------------------------------------------------ the end of a service *)

Lemma complete_each_reaches e b : rms_agree e -> forall ts c c' code k, (forall t, In t ts -> incl (t_inv t) (all c)) -> complete_each e b ts code c = (c', k) ->
  exists evs, since c c' evs /\ forall t r, In t ts -> In r (t_inv t) ->
    exists ev, In ev evs /\ if b && (t_state t =? active) then commits (x_id (t_id t)) r ev else rolls_back (x_id (t_id t)) r ev.
Proof.
  intros G. induction ts as [|t ts IH]; intros c c' code k K; cbn; [intros [= <- <-]; exists []; split; [apply since_nil|intros t r []]|].
  destruct (if b && (t_state t =? active) then commit_tx e t c else rollback_tx e t c) as [c1 k1] eqn:E. intros H.
  assert (X : (exists ev1, c1 = grow ev1 c) /\ exists ev1, since c c1 ev1 /\ forall r, In r (t_inv t) -> exists ev, In ev ev1 /\ if b && (t_state t =? active) then commits (x_id (t_id t)) r ev else rolls_back (x_id (t_id t)) r ev).
  { destruct (b && (t_state t =? active)); split.
    - apply commit_tx_grow in E. destruct E as (ev&->&_). eauto.
    - exact (commit_tx_reaches e t c c1 k1 G (K t (or_introl eq_refl)) E).
    - apply rollback_tx_grow in E. destruct E as (ev&->&_). eauto.
    - exact (rollback_tx_reaches e t c c1 k1 G (K t (or_introl eq_refl)) E). }
  destruct X as [(ev0&G0) (ev1&S1&R1)]. apply IH in H; [|intros u I; rewrite G0; change (all (grow ev0 c)) with (all c); apply K; right; exact I]. destruct H as (ev2&S2&R2). exists (ev1 ++ ev2).
  split; [exact (since_trans _ _ _ _ _ S1 S2)|]. intros u r [<-|I] Ir.
  - destruct (R1 r Ir) as (ev&Iv&C). exists ev. split; [apply in_app_iff; left; exact Iv|exact C].
  - destruct (R2 u r I Ir) as (ev&Iv&C). exists ev. split; [apply in_app_iff; right; exact Iv|exact C].
Qed.

Lemma finalize_reaches e d f c b c' s : reach e d f c -> rms_agree e -> finalize e b c = (c', s) ->
  exists evs, since c c' evs /\ forall t r, In t (c_txs c) -> x_id (t_id t) <> 0 -> x_own (t_id t) = me -> In r (t_inv t) ->
    exists ev, In ev evs /\ if b && (t_state t =? active) then commits (x_id (t_id t)) r ev else rolls_back (x_id (t_id t)) r ev.
Proof.
  intros R G H. pose proof (reach_known _ _ _ _ R) as [KI _]. unfold finalize in H. destruct (pending_check (c_txs c) m_ok (w_txs [] c)) as [c1 r1] eqn:P. apply pending_check_grow in P. destruct P as (ev1&->&_).
  destruct (complete_each e b _ tx_ok _) as [c2 code] eqn:CE. pose proof (complete_each_grow _ _ _ _ _ _ _ CE) as (ev2&G2&_). apply (complete_each_reaches e b G) in CE.
  2:{ intros t I. apply filter_In in I. destruct I as [I _]. apply filter_In in I. destruct I as [I _]. exact (KI t I). }
  destruct CE as (ev2'&S2&R2). assert (X : exists ev3, since c2 c' ev3).
  { destruct (filter _ _) as [|t o] in H; [injection H as <- _; exists []; apply since_nil|]. destruct (end_all e EndSuccess t c2) as [c3 k3] eqn:E. apply end_all_grow in E. destruct E as (ev3&->&_). injection H as <- _. exists ev3. reflexivity. }
  destruct X as (ev3&S3). exists (ev1 ++ ev2' ++ ev3). split.
  - unfold since in *. rewrite S3, S2. cbn. rewrite !app_assoc. reflexivity.
  - intros t r I N O Ir. destruct (R2 t r) as (ev&Iv&C); [|exact Ir|exists ev; split; [rewrite !in_app_iff; auto|exact C]].
    apply filter_In. split; [apply filter_In; split; [exact I|apply negb_true_iff, is_null_false; exact N]|apply Z.eqb_eq; exact O].
Qed.

Lemma rollback_tx_ctl e t c m : rollback_tx e t (w_ctl m c) = (w_ctl m (fst (rollback_tx e t c)), snd (rollback_tx e t c)).
Proof.
  unfold rollback_tx. rewrite end_all_ctl. destruct (end_all e EndSuccess t c) as [c1 code]. cbn [fst snd]. destruct (negb (tx_eqb code tx_ok)); [reflexivity|]. destruct (local t); [|reflexivity].
  change (c_fixed (w_ctl m c1)) with (c_fixed c1). generalize (sort_unique (t_inv t ++ c_fixed c1)) as rs. generalize tx_ok as k. intros k rs. revert k c1. induction rs as [|r rs IH]; intros k c1; cbn; [reflexivity|].
  unfold rm_rollback, rm. change (all (w_ctl m c1)) with (all c1). destruct (mem r (all c1)); [|apply IH]. rewrite <- IH. reflexivity.
Qed.
Lemma chained_rollback e d f c t c' k u : reach e d f c -> c_ctl c = Chained -> rollbackable c t -> step e Rollback c = (c', RTx k) -> snd (step e Rollback (w_ctl Unchained c)) = RTx u ->
  (length (held c') = length (held c) -> k = u) /\ (length (held c') <> length (held c) -> exists b, k = tx_add u b /\ (b = tx_error \/ b = tx_outside \/ b = tx_protocol)).
Proof.
  intros R CH CM H U. pose proof (reach_empty _ _ _ _ R) as EO. destruct (rollback_call _ _ _ _ _ EO CM H) as (l&c1&code&k0&E&CT&CO&[= <-]).
  assert (CM' : rollbackable (w_ctl Unchained c) t) by exact CM. destruct (step e Rollback (w_ctl Unchained c)) as [cu ru] eqn:HU. cbn in U. subst ru.
  destruct (rollback_call _ _ _ _ _ (EO : empty_ok (w_ctl Unchained c)) CM' HU) as (l'&c1'&code'&k'&E'&CT'&CO'&[= <-]).
  assert (LL : l' = l) by (cbn in E'; rewrite E in E'; apply app_inj_tail in E'; destruct E'; auto). subst l'.
  change (w_txs l (w_ctl Unchained c)) with (w_ctl Unchained (w_txs l c)) in CT'. rewrite rollback_tx_ctl, CT in CT'. injection CT' as <- <-. cbn in CO'. injection CO' as _ <-.
  pose proof (rollback_tx_grow _ _ _ _ _ CT) as (ev&G&_). unfold continuation in CO. rewrite G in CO at 1. change (c_ctl (grow ev (w_txs l c))) with (c_ctl c) in CO. rewrite CH in CO.
  destruct (begin e c1) as [c2 k2] eqn:B. injection CO as <- <-. pose proof (begin_held _ _ _ _ B) as (new&HN&X).
  assert (LH : length (held c) = S (length (held c1))). { rewrite G. unfold held. cbn. rewrite E, map_app, app_length. cbn. lia. }
  assert (LC : length (held c2) = (length (held c1) + length new)%nat) by (rewrite HN, app_length; reflexivity). destruct X as [[-> L1]|[N ->]].
  - split; [intros _; apply tx_add_ok_r|intros NE; lia].
  - split; [cbn in LC; lia|intros _]. exists k2. split; [reflexivity|]. clear -B N CH G. unfold begin in B. destruct (negb _).
    + rewrite G in B at 1. change (c_ctl (grow ev (w_txs l c))) with (c_ctl c) in B. rewrite CH in B. injection B as _ <-. auto.
    + destruct (t_dyn _); [|injection B as _ <-; auto]. apply begin_new_spec in B. destruct B as [[-> _]|[-> _]]; [contradiction|auto].
Qed.

(* a reply that is not ok *)
Lemma reply_dooms e c corr s a t b : x_id (t_id t) < c_next c -> c_txs c = a ++ t :: b -> In corr (t_pend t) -> active < s ->
  (forall u, In u a -> ~ In corr (t_pend u)) -> (forall u, In u (a ++ b) -> x_id (t_id u) <> x_id (t_id t)) -> doomed (x_id (t_id t)) (fst (step e (Reply corr s) c)).
Proof.
  intros L E M S U X. split; [exact L|]. cbn. rewrite E. apply mem_in in M. clear E. induction a as [|u a IH]; cbn.
  - rewrite M. intros v [<-|I] EV; [destruct (t_state t <? s) eqn:LT; cbn; [exact S|apply Z.ltb_ge in LT; lia]|]. destruct (X v I EV).
  - rewrite (proj2 (mem_out corr (t_pend u)) (U u (or_introl eq_refl))). intros v [<-|I] EV; [destruct (X u (or_introl eq_refl) EV)|]. apply IH; [| |exact I|exact EV].
    + intros w Iw. apply U. right. exact Iw.
    + intros w Iw. apply X. right. exact Iw.
Qed.

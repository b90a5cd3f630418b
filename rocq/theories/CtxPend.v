(* A correlation that is associated with a transaction and never replied: the transaction can't be committed by tx_commit *)
From Coq Require Import ZArith List Bool Lia.
From Verif Require Import CodesModel CtxModel CtxSpec CtxProofs CtxHeld CtxXa CtxMore.
Import ListNotations.
Local Open Scope Z_scope.

Definition awaits (x k : Z) (c : ctx) : Prop := x < c_next c /\ forall t, In t (c_txs c) -> x_id (t_id t) = x -> In k (t_pend t).
Lemma awaits_sub x k c c' : awaits x k c -> c_next c <= c_next c' -> (forall t, In t (c_txs c') -> x_id (t_id t) <> x \/ exists u, In u (c_txs c) /\ t_id u = t_id t /\ (In k (t_pend u) -> In k (t_pend t))) -> awaits x k c'.
Proof. intros [L D] N S. split; [lia|]. intros t I E. destruct (S t I) as [X|(u&Iu&EI&ES)]; [contradiction|]. assert (Y : x_id (t_id u) = x) by congruence. exact (ES (D u Iu Y)). Qed.
Lemma begin_awaits e c c' k r x : awaits x k c -> begin e c = (c', r) -> awaits x k c'.
Proof.
  intros D H. pose proof D as [L _]. apply begin_spec in H. destruct H as [[_ (evs&->)]|[_ (evs&fx&n&->&LN)]]; apply (awaits_sub x k c _ D); cbn; try lia.
  - intros t I. apply in_app_iff in I. destruct I as [I|[<-|[]]]; [right; exists t; auto with zarith|left; cbn; lia].
  - intros t I. right. exists t. auto with zarith.
Qed.
Lemma continuation_awaits e code c c' k r x : empty_ok c -> awaits x k c -> continuation e code c = (c', r) -> awaits x k c'.
Proof.
  intros EO D H. apply (continuation_spec e code c c' r EO) in H. destruct (c_ctl c).
  - destruct H as [-> _]. exact D.
  - destruct H as (k'&H&_). exact (begin_awaits _ _ _ _ _ _ D H).
  - destruct H as [(_&->&_)|(l&t&evs&E&_&_&->&_)]; [exact D|]. apply (awaits_sub x k c _ D); [cbn; lia|]. intros u I. cbn in I. rewrite E. apply in_app_iff in I. destruct I as [I|[<-|[]]].
    + right. exists u. split; [apply in_app_iff; left; exact I|auto with zarith].
    + right. exists t. split; [apply in_app_iff; right; left; reflexivity|auto with zarith].
Qed.
Lemma set_current_awaits t c k x : awaits x k c -> t_id t = t_id (current c) -> (In k (t_pend (current c)) -> In k (t_pend t)) -> awaits x k (set_current t c).
Proof.
  intros D EI ES. unfold set_current, current in *. destruct (split_last (c_txs c)) as [[l u]|] eqn:S; [|exact D]. apply split_last_some in S. destruct (t_susp u); [exact D|].
  apply (awaits_sub x k c _ D); [cbn; lia|]. intros v I. cbn in I. right. rewrite S. apply in_app_iff in I. destruct I as [I|[<-|[]]].
  - exists v. split; [apply in_app_iff; left; exact I|auto with zarith].
  - exists u. split; [apply in_app_iff; right; left; reflexivity|]. split; [congruence|exact ES].
Qed.
Lemma step_awaits e i c k x : empty_ok c -> x <> 0 -> awaits x k c -> not_joined x i -> (forall s, i <> Reply k s) -> awaits x k (fst (step e i c)).
Proof.
  intros EO NZ D NJ NR. pose proof D as [L DD]. destruct i; cbn [step]; unfold tx_result; cbn [fst].
  - destruct (begin e c) as [c' r] eqn:E. exact (begin_awaits _ _ _ _ _ _ D E).
  - unfold commit. destruct (may_commit (current c)); [|exact D]. destruct (split_last (c_txs c)) as [[l t]|] eqn:S; [|exact D]. apply split_last_some in S.
    destruct (commit_tx e t (w_txs l c)) as [c1 code] eqn:E. apply commit_tx_grow in E. destruct E as (evs&->&_). destruct (continuation e code _) as [c' r] eqn:E2.
    apply (continuation_awaits e code (grow evs (w_txs l c)) c' k r x EO); [|exact E2]. apply (awaits_sub x k c _ D); [cbn; lia|]. intros u I. right. exists u. rewrite S. split; [apply in_app_iff; left; exact I|auto with zarith].
  - unfold rollback. destruct (may_rollback (current c)); [|exact D]. destruct (split_last (c_txs c)) as [[l t]|] eqn:S; [|exact D]. apply split_last_some in S.
    destruct (rollback_tx e t (w_txs l c)) as [c1 code] eqn:E. apply rollback_tx_grow in E. destruct E as (evs&->&_). destruct (continuation e code _) as [c' r] eqn:E2.
    apply (continuation_awaits e code (grow evs (w_txs l c)) c' k r x EO); [|exact E2]. apply (awaits_sub x k c _ D); [cbn; lia|]. intros u I. right. exists u. rewrite S. split; [apply in_app_iff; left; exact I|auto with zarith].
  - unfold suspend. destruct (negb given); [exact D|]. destruct (is_null (t_id (current c))); [exact D|]. destruct (end_all e EndSuspend _ _) as [c1 code] eqn:E. apply end_all_grow in E. destruct E as (evs&->&_).
    assert (X : awaits x k (grow evs (set_current (w_susp true (current c)) c))) by (apply (set_current_awaits _ c k x D); [reflexivity|auto]). destruct (tx_eqb code tx_ok); exact X.
  - unfold resume. destruct x0 as [y|]; [|exact D]. destruct (y =? 0); [exact D|]. destruct (negb _ && negb _); [exact D|]. destruct (t_dyn (current c)); [|exact D].
    destruct (split_at y (c_txs c)) as [[[a t] b]|] eqn:S; [|exact D]. apply split_at_some in S. destruct S as (S&_&_). destruct (negb (t_susp t)); [exact D|].
    destruct (start_these _ _ _ _ _) as [[c1 t1] code] eqn:E. apply start_these_grow in E. destruct E as [(evs&->&_) ->].
    destruct (tx_eqb code tx_ok); apply (awaits_sub x k c _ D); cbn; try lia; intros u I; rewrite S; right; rewrite !in_app_iff in I; cbn in I.
    + destruct I as [I|[I|[<-|[]]]]; [exists u|exists u|exists t]; rewrite in_app_iff; cbn; auto 7 with zarith.
    + destruct I as [I|[<-|I]]; [exists u|exists t|exists u]; rewrite in_app_iff; cbn; auto 7 with zarith.
  - exact D.
  - exact D.
  - exact D.
  - destruct (is_null _); [exact D|]. apply set_current_awaits; [exact D|reflexivity|]. cbn. intros I. apply in_app_iff. left. exact I.
  - assert (NK : corr <> k) by (intros ->; exact (NR s eq_refl)). apply (awaits_sub x k c _ D); [cbn; lia|]. cbn. intros t I. right. revert I. generalize (c_txs c) as l. induction l as [|u l IH]; cbn; intros I; [destruct I|]. destruct (mem corr (t_pend u)).
    + destruct I as [<-|I]; [|exists t; auto with zarith]. exists u. split; [auto|]. destruct (t_state u <? s) eqn:LT; cbn; (split; [reflexivity|]); intros Q; apply filter_In; (split; [exact Q|]); rewrite negb_true_iff, Z.eqb_neq; auto.
    + destruct I as [<-|I]; [exists u; auto with zarith|]. destruct (IH I) as (v&Iv&EV&SV). exists v. auto.
  - destruct (is_null _); [exact D|]. apply set_current_awaits; [exact D|reflexivity|auto].
  - unfold register. destruct (negb _); [exact D|]. destruct (mem r _); [exact D|]. destruct (is_null _); [apply set_current_awaits; [exact D|reflexivity|auto]|]. destruct (mem r _); [apply set_current_awaits; [exact D|reflexivity|auto]|].
    destruct (local _); cbn [fst]; apply set_current_awaits; try exact D; auto.
  - unfold unregister. destruct (negb _); [exact D|]. destruct (mem r _); [apply set_current_awaits; [exact D|reflexivity|auto]|exact D].
  - cbn in NJ. unfold join. destruct (is_null t).
    + apply (awaits_sub x k c _ D); cbn; [lia|]. intros u I. apply in_app_iff in I. destruct I as [I|[<-|[]]]; [right; exists u; auto with zarith|left; exact NJ].
    + destruct (join_these _ _ _ _) as [[c1 t1] code] eqn:E. apply join_these_grow in E. destruct E as [(evs&->) ->]. apply (awaits_sub x k c _ D); cbn; [lia|]. intros u I. apply in_app_iff in I. destruct I as [I|[<-|[]]]; [right; exists u; auto with zarith|left; exact NJ].
  - unfold start. destruct (start_these _ _ _ _ _) as [[c1 t1] code] eqn:E. apply start_these_grow in E. destruct E as [(evs&->&_) ->]. destruct (tx_eqb code tx_ok); apply (awaits_sub x k c _ D); cbn; try lia; intros u I.
    + apply in_app_iff in I. destruct I as [I|[<-|[]]]; [right; exists u; auto with zarith|left; cbn; lia].
    + right. exists u. auto with zarith.
  - unfold branch. destruct (is_null t) eqn:NU.
    + apply (awaits_sub x k c _ D); cbn; [lia|]. intros u I. apply in_app_iff in I. destruct I as [I|[<-|[]]]; [right; exists u; auto with zarith|]. left. cbn. apply is_null_spec in NU. rewrite NU. intros X. apply NZ. symmetry. exact X.
    + set (c0 := match c_fixed c with [] => _ | _ => _ end).
      assert (Y : c_next c0 = c_next c + 1 /\ c_txs c0 = c_txs c) by (unfold c0; destruct (c_fixed c); cbn; auto). destruct Y as (Y1&Y2).
      destruct (start_these _ _ _ _ c0) as [[c1 t1] code] eqn:E. apply start_these_grow in E. destruct E as [(evs&->&_) ->]. cbn [fst]. apply (awaits_sub x k c _ D); cbn; [lia|]. rewrite Y2. intros u I.
      apply in_app_iff in I. destruct I as [I|[<-|[]]]; [right; exists u; auto with zarith|left; cbn; lia].
  - destruct (finalize e do_commit c) as [c1 s] eqn:E. apply finalize_grow in E. destruct E as (evs&->&_). apply (awaits_sub x k c _ D); cbn; [lia|]. intros u [].
Qed.
Lemma run_awaits e d f k x is : x <> 0 -> Forall (not_joined x) is -> (forall s, ~ In (Reply k s) is) -> forall c, reach e d f c -> awaits x k c -> awaits x k (fst (run e is c)) /\ reach e d f (fst (run e is c)).
Proof.
  intros NZ. induction is as [|i is IH]; intros F NR c R A; [cbn; auto|]. inversion F as [|? ? NJ F']; subst. cbn [run].
  assert (A1 : awaits x k (fst (step e i c))) by (apply step_awaits; [exact (reach_empty _ _ _ _ R)|exact NZ|exact A|exact NJ|intros s ->; exact (NR s (or_introl eq_refl))]).
  pose proof (reach_step e d f c i R) as R1. destruct (step e i c) as [c1 r]. cbn [fst] in *. destruct (IH F' (fun s B => NR s (or_intror B)) c1 R1 A1) as [A2 R2]. destruct (run e is c1) as [c2 h]. cbn [fst] in *. auto.
Qed.
(* after the association no tx_commit of the transaction is accepted *)
Lemma call_blocks e d f c k x is : reach e d f c -> x <> 0 -> x < c_next c -> (forall u, In u (removelast (c_txs c)) -> x_id (t_id u) <> x) -> in_tx c = x -> Forall (not_joined x) is -> (forall s, ~ In (Reply k s) is) ->
  let c' := fst (run e (ServiceCall k :: is) c) in in_tx c' = x -> step e Commit c' = (c', RTx tx_protocol).
Proof.
  intros R NZ L U IT F NR c'. unfold c'. cbn [run]. assert (A1 : awaits x k (fst (step e (ServiceCall k) c))).
  { split; [cbn; destruct (is_null _); [exact L|]; unfold set_current; destruct (split_last (c_txs c)) as [[l u]|]; [destruct (t_susp u)|]; exact L|]. cbn [step fst]. unfold in_tx, info in IT. destruct (is_null (t_id (current c))) eqn:NU; cbn [negb] in IT; [congruence|].
    unfold set_current, current in *. destruct (split_last (c_txs c)) as [[l u]|] eqn:S; [|pose proof (reach_empty _ _ _ _ R) as EO; destruct EO as [EO _]; congruence].
    apply split_last_some in S. destruct (t_susp u); [exfalso; pose proof (reach_empty _ _ _ _ R) as EO; destruct EO as [EO _]; congruence|]. cbn. intros t I E. apply in_app_iff in I. destruct I as [I|[<-|[]]].
    - exfalso. rewrite S, removelast_snoc in U. exact (U t I E).
    - cbn. apply in_app_iff. right. left. reflexivity. }
  pose proof (reach_step e d f c (ServiceCall k) R) as R1. destruct (step e (ServiceCall k) c) as [c1 r]. cbn [fst] in *. destruct (run_awaits e d f k x is NZ F NR c1 R1 A1) as [A2 R2]. destruct (run e is c1) as [c2 h]. cbn [fst] in *. intros IT2.
  cbn [step]. unfold tx_result. rewrite commit_refused; [reflexivity|]. destruct (may_commit (current c2)) eqn:M; [|reflexivity]. exfalso.
  assert (Q : committable c2 (current c2)) by (apply (committable_current c2 _ (reach_empty _ _ _ _ R2)); auto). destruct Q as ((l & E & _ & N0) & _ & _ & P0).
  destruct A2 as [_ A2]. assert (X : x_id (t_id (current c2)) = x). { unfold in_tx, info in IT2. destruct (negb _); [exact IT2|congruence]. }
  specialize (A2 (current c2) ltac:(rewrite E; apply in_app_iff; right; left; reflexivity) X). rewrite P0 in A2. exact A2.
Qed.

From Coq Require Import ZArith List Bool Lia Permutation.
From Verif Require Import CodesModel CtxModel CtxSpec CtxProofs CtxXa CtxMore.
Import ListNotations.
Local Open Scope Z_scope.

(* ---------------------------------------------------------------- how the transactions of the context evolve with a call *)
Definition lost (i : call) (k : Z) : Prop := match i with Reply k' _ => k = k' | _ => False end.
Record carried (i : call) (u t : txn) : Prop := {
  k_id : t_id u = t_id t;
  k_state : t_state u <= t_state t;
  k_keeps : forall k, In k (t_pend u) -> lost i k \/ In k (t_pend t);
  k_adds : forall k, In k (t_pend t) -> In k (t_pend u) \/ i = ServiceCall k }.
Definition novel (i : call) (x : Z) (c c' : ctx) (t : txn) : Prop := (t_pend t = [] /\ t_state t = active) /\ (x_id (t_id t) <> x \/ (x_id (t_id t) = c_next c /\ c_next c < c_next c')).
Definition evolve (i : call) (x : Z) (c c' : ctx) : Prop :=
  c_next c <= c_next c' /\ exists old rest kept new, Permutation (c_txs c) (old ++ rest) /\ Permutation (c_txs c') (kept ++ new) /\
    Forall2 (carried i) old kept /\ (length new <= 1)%nat /\ forall t, In t new -> novel i x c c' t.

Lemma carried_refl i t : carried i t t.
Proof. split; auto; lia. Qed.
Lemma carried_list i l : Forall2 (carried i) l l.
Proof. induction l; constructor; auto using carried_refl. Qed.
Lemma evolve_same i x c c' : c_next c <= c_next c' -> c_txs c' = c_txs c -> evolve i x c c'.
Proof. intros N E. split; [exact N|]. exists (c_txs c), [], (c_txs c), []. rewrite app_nil_r, E. split; [reflexivity|]. split; [reflexivity|]. split; [apply carried_list|]. split; [cbn; lia|intros t []]. Qed.
Lemma evolve_refl i x c : evolve i x c c.
Proof. apply evolve_same; [lia|reflexivity]. Qed.
(* some go, the others stay, one may come *)
Lemma evolve_sub i x c c' old rest kept new : c_next c <= c_next c' -> Permutation (c_txs c) (old ++ rest) -> Permutation (c_txs c') (kept ++ new) -> Forall2 (carried i) old kept ->
  (length new <= 1)%nat -> (forall t, In t new -> novel i x c c' t) -> evolve i x c c'.
Proof. intros. split; [assumption|]. exists old, rest, kept, new. auto. Qed.
Lemma evolve_push i x c c' t : c_next c <= c_next c' -> c_txs c' = c_txs c ++ [t] -> novel i x c c' t -> evolve i x c c'.
Proof.
  intros N E V. apply (evolve_sub i x c c' (c_txs c) [] (c_txs c) [t]); auto.
  - rewrite app_nil_r. reflexivity.
  - rewrite E. reflexivity.
  - apply carried_list.
  - intros u [<- | []]. exact V.
Qed.
Lemma evolve_last i x c c' l t t' : c_next c <= c_next c' -> c_txs c = l ++ [t] -> c_txs c' = l ++ [t'] -> carried i t t' -> evolve i x c c'.
Proof.
  intros N E E' K. apply (evolve_sub i x c c' (l ++ [t]) [] (l ++ [t']) []); auto.
  - rewrite E, app_nil_r. reflexivity.
  - rewrite E', app_nil_r. reflexivity.
  - apply Forall2_app; [apply carried_list|]. constructor; [exact K|constructor].
  - intros u [].
Qed.
(* the last goes, and then something else *)
Lemma evolve_pop i j x c c' l t : (forall u v, carried j u v -> carried i u v) -> c_txs c = l ++ [t] -> evolve j x (w_txs l c) c' -> evolve i x c c'.
Proof.
  intros W E (N & old & rest & kept & new & P1 & P2 & F & L & V). split; [exact N|]. exists old, (rest ++ [t]), kept, new. split.
  - rewrite E, app_assoc. apply Permutation_app_tail. exact P1.
  - split; [exact P2|]. split; [|split; [exact L|exact V]]. clear -F W. induction F; constructor; auto.
Qed.
Lemma set_current_evolve i x c t : carried i (current c) t -> evolve i x c (set_current t c).
Proof.
  intros K. unfold set_current, current in *. destruct (split_last (c_txs c)) as [[l u]|] eqn:S; [|apply evolve_same; [cbn; lia|reflexivity]]. apply split_last_some in S.
  destruct (t_susp u); [apply evolve_same; [cbn; lia|reflexivity]|]. apply (evolve_last i x c _ l u t); auto. cbn. lia.
Qed.
Lemma carried_inv i rs t : carried i t (involve rs t).
Proof. split; cbn; auto; lia. Qed.
Lemma begin_evolve i e c c' k x : begin e c = (c', k) -> evolve i x c c'.
Proof.
  intros H. apply begin_spec in H. destruct H as [[_ (evs & ->)] | [_ (evs & fx & n & -> & LN)]].
  - eapply evolve_push; [cbn; lia|reflexivity|]. split; [split; reflexivity|]. right. cbn. split; [reflexivity|lia].
  - apply evolve_same; [cbn; lia|reflexivity].
Qed.
Lemma continuation_evolve i e code c c' k x : empty_ok c -> continuation e code c = (c', k) -> evolve i x c c'.
Proof.
  intros EO H. apply (continuation_spec e code c c' k EO) in H. destruct (c_ctl c).
  - destruct H as [-> _]. apply evolve_refl.
  - destruct H as (k' & H & _). exact (begin_evolve i _ _ _ _ x H).
  - destruct H as [(_ & -> & _) | (l & t & evs & E & _ & _ & -> & _)]; [apply evolve_refl|]. apply (evolve_last i x c _ l t (involve (all c) t)); auto; [cbn; lia|]. apply carried_inv.
Qed.

Lemma update_first_carried corr s l : Forall2 (carried (Reply corr s)) l (update_first corr s l).
Proof.
  induction l as [|t l IH]; cbn; [constructor|]. destruct (mem corr (t_pend t)); [|constructor; [apply carried_refl|exact IH]].
  constructor; [|apply carried_list]. destruct (t_state t <? s) eqn:LT; [apply Z.ltb_lt in LT|]; split; cbn; try reflexivity; try lia.
  - intros k I. destruct (Z.eq_dec k corr) as [-> | N]; [left; reflexivity|right]. apply filter_In. split; [exact I|]. apply negb_true_iff, Z.eqb_neq. exact N.
  - intros k I. apply filter_In in I. left. tauto.
  - intros k I. destruct (Z.eq_dec k corr) as [-> | N]; [left; reflexivity|right]. apply filter_In. split; [exact I|]. apply negb_true_iff, Z.eqb_neq. exact N.
  - intros k I. apply filter_In in I. left. tauto.
Qed.

Lemma step_evolves e i c x : empty_ok c -> x <> 0 -> not_joined x i -> evolve i x c (fst (step e i c)).
Proof.
  intros EO NZ NJ. destruct i; cbn [step]; unfold tx_result; cbn [fst].
  - destruct (begin e c) as [c' k] eqn:E. exact (begin_evolve _ _ _ _ _ x E).
  - unfold commit. destruct (may_commit (current c)); [|apply evolve_refl]. destruct (split_last (c_txs c)) as [[l t]|] eqn:S; [|apply evolve_refl]. apply split_last_some in S.
    destruct (commit_tx e t (w_txs l c)) as [c1 code] eqn:E. apply commit_tx_grow in E. destruct E as (evs & -> & _). destruct (continuation e code _) as [c' k] eqn:E2. cbn [fst].
    apply (continuation_evolve Commit e code (grow evs (w_txs l c)) c' k x EO) in E2. exact (evolve_pop Commit Commit x c c' l t (fun u v K => K) S E2).
  - unfold rollback. destruct (may_rollback (current c)); [|apply evolve_refl]. destruct (split_last (c_txs c)) as [[l t]|] eqn:S; [|apply evolve_refl]. apply split_last_some in S.
    destruct (rollback_tx e t (w_txs l c)) as [c1 code] eqn:E. apply rollback_tx_grow in E. destruct E as (evs & -> & _). destruct (continuation e code _) as [c' k] eqn:E2. cbn [fst].
    apply (continuation_evolve Rollback e code (grow evs (w_txs l c)) c' k x EO) in E2. exact (evolve_pop Rollback Rollback x c c' l t (fun u v K => K) S E2).
  - unfold suspend. destruct (negb given); [apply evolve_refl|]. destruct (is_null (t_id (current c))); [apply evolve_refl|]. destruct (end_all e EndSuspend _ _) as [c1 code] eqn:E. apply end_all_grow in E. destruct E as (evs & -> & _).
    assert (X : evolve (Suspend given) x c (grow evs (set_current (w_susp true (current c)) c))) by (apply set_current_evolve; split; cbn; auto; lia). destruct (tx_eqb code tx_ok); exact X.
  - unfold resume. destruct x0 as [y|]; [|apply evolve_refl]. destruct (y =? 0); [apply evolve_refl|]. destruct (negb _ && negb _); [apply evolve_refl|]. destruct (t_dyn (current c)); [|apply evolve_refl].
    destruct (split_at y (c_txs c)) as [[[a t] b]|] eqn:S; [|apply evolve_refl]. apply split_at_some in S. destruct S as (S & _ & _). destruct (negb (t_susp t)); [apply evolve_refl|].
    destruct (start_these _ _ _ _ _) as [[c1 t1] code] eqn:E. apply start_these_grow in E. destruct E as [(evs & -> & _) ->].
    assert (K : carried (Resume (Some y)) t (involve (c_fixed c) (w_susp false t))) by (split; cbn; auto; lia).
    assert (F : Forall2 (carried (Resume (Some y))) (a ++ t :: b) (a ++ involve (c_fixed c) (w_susp false t) :: b)) by (apply Forall2_app; [apply carried_list|constructor; [exact K|apply carried_list]]).
    destruct (tx_eqb code tx_ok); cbn [fst].
    + eapply (evolve_sub _ x c _ (a ++ t :: b) [] _ []); [cbn; lia|rewrite S, app_nil_r; reflexivity| |exact F|cbn; lia|intros u []].
      cbn. rewrite app_nil_r. rewrite Permutation_app_comm. rewrite <- app_assoc. reflexivity.
    + eapply (evolve_sub _ x c _ (a ++ t :: b) [] _ []); [cbn; lia|rewrite S, app_nil_r; reflexivity| |exact F|cbn; lia|intros u []]. cbn. rewrite app_nil_r. reflexivity.
  - apply evolve_same; [cbn; lia|reflexivity].
  - apply evolve_same; [cbn; lia|reflexivity].
  - apply evolve_refl.
  - destruct (is_null _); [apply evolve_refl|]. apply set_current_evolve. split; cbn; auto; [lia| |].
    + intros k I. right. apply in_app_iff. left. exact I.
    + intros k I. apply in_app_iff in I. destruct I as [I | [<- | []]]; auto.
  - eapply (evolve_sub _ x c _ (c_txs c) [] (update_first corr s (c_txs c)) []); [cbn; lia|rewrite app_nil_r; reflexivity|cbn; rewrite app_nil_r; reflexivity|apply update_first_carried|cbn; lia|intros u []].
  - destruct (is_null _); [apply evolve_refl|]. apply set_current_evolve. split; cbn; auto; lia.
  - unfold register. destruct (negb _); [apply evolve_refl|]. destruct (mem r _); [apply evolve_refl|]. destruct (is_null _); [apply set_current_evolve; split; cbn; auto; lia|]. destruct (mem r _); [apply set_current_evolve; split; cbn; auto; lia|].
    destruct (local _); cbn [fst]; [apply set_current_evolve; split; cbn; auto; lia|].
    match goal with |- evolve ?i x c (set_current ?t ?d) => assert (K : carried i (current c) t) by (split; cbn; auto; lia); exact (set_current_evolve i x d t K) end.
  - unfold unregister. destruct (negb _); [apply evolve_refl|]. destruct (mem r _); [apply set_current_evolve; split; cbn; auto; lia|apply evolve_refl].
  - cbn in NJ. unfold join. destruct (is_null t).
    + eapply evolve_push; [cbn; lia|reflexivity|]. split; [split; reflexivity|left; exact NJ].
    + destruct (join_these _ _ _ _) as [[c1 t1] code] eqn:E. apply join_these_grow in E. destruct E as [(evs & ->) ->]. eapply evolve_push; [cbn; lia|reflexivity|]. split; [split; reflexivity|left; exact NJ].
  - unfold start. destruct (start_these _ _ _ _ _) as [[c1 t1] code] eqn:E. apply start_these_grow in E. destruct E as [(evs & -> & _) ->]. destruct (tx_eqb code tx_ok).
    + eapply evolve_push; [cbn; lia|reflexivity|]. split; [split; reflexivity|right; cbn; lia].
    + apply evolve_same; [cbn; lia|reflexivity].
  - unfold branch. destruct (is_null t) eqn:NU.
    + eapply evolve_push; [cbn; lia|reflexivity|]. split; [split; reflexivity|]. left. cbn. apply is_null_spec in NU. rewrite NU. congruence.
    + set (c0 := match c_fixed c with [] => _ | _ => _ end).
      assert (Y : c_next c0 = c_next c + 1 /\ c_txs c0 = c_txs c) by (unfold c0; destruct (c_fixed c); cbn; auto). destruct Y as (Y1 & Y2).
      destruct (start_these _ _ _ _ c0) as [[c1 t1] code] eqn:E. apply start_these_grow in E. destruct E as [(evs & -> & _) ->]. cbn [fst]. eapply evolve_push; [cbn; lia|cbn; rewrite Y2; reflexivity|].
      split; [split; reflexivity|right; cbn; lia].
  - destruct (finalize e do_commit c) as [c1 s] eqn:E. apply finalize_grow in E. destruct E as (evs & -> & _). eapply (evolve_sub _ x c _ [] (c_txs c) [] []); [cbn; lia|reflexivity|reflexivity|constructor|cbn; lia|intros u []].
Qed.

(* ---------------------------------------------------------------- at most one of the transactions has a given XID *)
Definition cnt (x : Z) (l : list txn) : nat := count_occ Z.eq_dec (map (fun t => x_id (t_id t)) l) x.
Definition once (x : Z) (c : ctx) : Prop := (cnt x (c_txs c) <= 1)%nat /\ (c_next c <= x -> cnt x (c_txs c) = 0%nat).
Lemma cnt_app x a b : cnt x (a ++ b) = (cnt x a + cnt x b)%nat.
Proof. unfold cnt. rewrite map_app. apply count_occ_app. Qed.
Lemma cnt_perm x a b : Permutation a b -> cnt x a = cnt x b.
Proof. intros P. unfold cnt. apply (Permutation_map (fun t => x_id (t_id t))) in P. apply (proj1 (Permutation_count_occ Z.eq_dec _ _) P). Qed.
Lemma cnt_carried i x a b : Forall2 (carried i) a b -> cnt x a = cnt x b.
Proof. intros F. unfold cnt. f_equal. induction F as [|u t a b K F IH]; [reflexivity|]. cbn. rewrite (k_id _ _ _ K), IH. reflexivity. Qed.
Lemma cnt_in x l t : In t l -> x_id (t_id t) = x -> (1 <= cnt x l)%nat.
Proof. intros I E. unfold cnt. apply count_occ_In. rewrite <- E. apply (in_map (fun t => x_id (t_id t))). exact I. Qed.
Lemma cnt_zero x l : cnt x l = 0%nat -> forall t, In t l -> x_id (t_id t) <> x.
Proof. intros Z0 t I E. pose proof (cnt_in x l t I E). lia. Qed.
Lemma once_evolve i x c c' : evolve i x c c' -> once x c -> once x c'.
Proof.
  intros (N & old & rest & kept & new & P1 & P2 & F & L & V) (O1 & O2). unfold once. rewrite (cnt_perm x _ _ P2). rewrite (cnt_perm x _ _ P1) in O1, O2. rewrite cnt_app in *. rewrite <- (cnt_carried i x _ _ F).
  assert (W : cnt x new = 0%nat \/ (cnt x new <= 1)%nat /\ x = c_next c /\ c_next c < c_next c').
  { destruct new as [|t [|u new]]; [left; reflexivity| |cbn in L; lia]. specialize (V t (or_introl eq_refl)). destruct V as (_ & V). unfold cnt. cbn. destruct (Z.eq_dec (x_id (t_id t)) x) as [E|NE]; [|left; reflexivity].
    right. split; [lia|]. destruct V as [V | V]; [contradiction|lia]. }
  destruct W as [-> | (W1 & W2 & W3)]; [split; [lia|intros G; assert (O3 := O2 ltac:(lia)); lia]|]. specialize (O2 ltac:(lia)). split; lia.
Qed.

(* ---------------------------------------------------------------- a call that has been made in a transaction *)
Definition tied (x k : Z) (c : ctx) : Prop := x < c_next c /\ forall t, In t (c_txs c) -> x_id (t_id t) = x -> In k (t_pend t).
Definition only (x k : Z) (c : ctx) : Prop := forall t, In t (c_txs c) -> In k (t_pend t) -> x_id (t_id t) = x.
Lemma evolve_in i x c c' t : evolve i x c c' -> In t (c_txs c') -> (exists u, In u (c_txs c) /\ carried i u t) \/ novel i x c c' t.
Proof.
  intros (N & old & rest & kept & new & P1 & P2 & F & L & V) I. apply (Permutation_in _ P2) in I. apply in_app_iff in I. destruct I as [I | I]; [left|right; exact (V t I)].
  assert (X : exists u, In u old /\ carried i u t).
  { clear -F I. induction F as [|u t' a b K F IH]; [destruct I|]. destruct I as [<- | I]; [exists u; cbn; auto|]. destruct (IH I) as (w & Iw & Kw). exists w. cbn. auto. }
  destruct X as (u & Iu & K). exists u. split; [|exact K]. apply (Permutation_in _ (Permutation_sym P1)). apply in_app_iff. left. exact Iu.
Qed.
Lemma tied_evolve i x k c c' : evolve i x c c' -> ~ lost i k -> tied x k c -> tied x k c'.
Proof.
  intros V NL (L & T). split; [destruct V; lia|]. intros t I E. destruct (evolve_in _ _ _ _ t V I) as [(u & Iu & K) | (_ & [NE | (EQ & _)])].
  - destruct (k_keeps _ _ _ K k) as [Y | Y]; [|contradiction|exact Y]. apply T; [exact Iu|]. rewrite (k_id _ _ _ K). exact E.
  - contradiction.
  - lia.
Qed.
Lemma only_evolve i x k c c' : evolve i x c c' -> i <> ServiceCall k -> only x k c -> only x k c'.
Proof.
  intros V NS O t I J. destruct (evolve_in _ _ _ _ t V I) as [(u & Iu & K) | ((E & _) & _)]; [|rewrite E in J; destruct J].
  destruct (k_adds _ _ _ K k J) as [Y | Y]; [|contradiction]. rewrite <- (k_id _ _ _ K). exact (O u Iu Y).
Qed.
Lemma doomed_evolve i x c c' : evolve i x c c' -> doomed x c -> doomed x c'.
Proof.
  intros V (L & D). split; [destruct V; lia|]. intros t I E. destruct (evolve_in _ _ _ _ t V I) as [(u & Iu & K) | (_ & [NE | (EQ & _)])].
  - pose proof (k_state _ _ _ K). specialize (D u Iu). rewrite (k_id _ _ _ K) in D. specialize (D E). lia.
  - contradiction.
  - lia.
Qed.
(* it becomes tied when it's made *)
Lemma call_ties e c x k : empty_ok c -> x_id (t_id (current c)) = x -> x <> 0 -> once x c -> (forall t, In t (c_txs c) -> ~ In k (t_pend t)) ->
  tied x k (fst (step e (ServiceCall k) c)) /\ only x k (fst (step e (ServiceCall k) c)).
Proof.
  intros EO E NZ (O1 & O2) FR. assert (NZ' : x_id (t_id (current c)) <> 0) by congruence. destruct (current_real c EO NZ') as (l & EL & SU & _).
  cbn [step fst]. rewrite (proj2 (is_null_false _) NZ'). rewrite (set_current_real c _ l (current c) EL SU). remember (current c) as t.
  assert (C1 : cnt x [t] = 1%nat) by (unfold cnt; cbn; destruct (Z.eq_dec (x_id (t_id t)) x); [reflexivity|contradiction]).
  rewrite EL, cnt_app, C1 in O1, O2. split.
  - split; [cbn; destruct (Z_lt_le_dec x (c_next c)) as [|G]; [assumption|specialize (O2 G); lia]|]. cbn. intros u I EU. apply in_app_iff in I. destruct I as [I | [<- | []]].
    + pose proof (cnt_in x l u I EU). lia.
    + cbn. apply in_app_iff. right. left. reflexivity.
  - intros u. cbn. intros I J. apply in_app_iff in I. destruct I as [I | [<- | []]]; [|exact E]. exfalso. apply (FR u); [rewrite EL; apply in_app_iff; left; exact I|exact J].
Qed.
(* and the transaction can't be committed *)
Lemma tied_refuses e x k c : empty_ok c -> x <> 0 -> x_id (t_id (current c)) = x -> tied x k c -> step e Commit c = (c, RTx tx_protocol).
Proof.
  intros EO NZ E (_ & T). cbn [step]. unfold tx_result. rewrite commit_refused; [reflexivity|]. destruct (may_commit (current c)) eqn:M; [|reflexivity]. apply may_commit_spec in M. destruct M as (N & _ & _ & P).
  destruct (current_real c EO N) as (l & EL & _). specialize (T (current c)). rewrite EL, P in T. destruct T; [apply in_app_iff; right; left; reflexivity|exact E].
Qed.
(* a reply that isn't ok dooms it *)
Lemma bad_reply_dooms e x k s c : x <> 0 -> once x c -> tied x k c -> only x k c -> active < s -> doomed x (fst (step e (Reply k s) c)).
Proof.
  intros NZ (O1 & _) (L & T) O S. split; [exact L|]. cbn [step fst w_txs c_txs]. intros t I E.
  assert (G : forall l, (cnt x l <= 1)%nat -> (forall u, In u l -> x_id (t_id u) = x -> In k (t_pend u)) -> (forall u, In u l -> In k (t_pend u) -> x_id (t_id u) = x) -> In t (update_first k s l) -> active < t_state t).
  { clear -S E. induction l as [|u l IH]; cbn [update_first]; intros C T O I; [destruct I|]. rewrite (cnt_app x [u] l : cnt x (u :: l) = _) in C. destruct (mem k (t_pend u)) eqn:M.
    - apply mem_in in M. pose proof (O u (or_introl eq_refl) M) as EU. assert (C1 : cnt x [u] = 1%nat) by (unfold cnt; cbn; destruct (Z.eq_dec (x_id (t_id u)) x); [reflexivity|contradiction]).
      destruct I as [<- | I]; [destruct (t_state u <? s) eqn:LT; cbn; [exact S|apply Z.ltb_ge in LT; lia]|]. pose proof (cnt_in x l t I E). lia.
    - apply mem_out in M. destruct I as [<- | I]; [destruct M; apply T; [left; reflexivity|exact E]|]. apply IH; auto; [lia| |].
      + intros w Iw. apply T. right. exact Iw.
      + intros w Iw. apply O. right. exact Iw. }
  exact (G (c_txs c) O1 T O I).
Qed.
Lemma doomed_refuses e x c : empty_ok c -> x <> 0 -> x_id (t_id (current c)) = x -> doomed x c -> step e Commit c = (c, RTx tx_protocol).
Proof.
  intros EO NZ E (_ & D). cbn [step]. unfold tx_result. rewrite commit_refused; [reflexivity|]. destruct (may_commit (current c)) eqn:M; [|reflexivity]. apply may_commit_spec in M. destruct M as (N & _ & A & P).
  destruct (current_real c EO N) as (l & EL & _). specialize (D (current c)). rewrite EL, A in D. specialize (D ltac:(apply in_app_iff; right; left; reflexivity) E). lia.
Qed.

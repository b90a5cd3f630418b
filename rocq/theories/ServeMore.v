From Coq Require Import ZArith List Bool Lia Permutation.
From Verif Require Import CodesModel CtxModel CtxSpec CtxProofs CtxXa CtxMore CallModel CallSpec CallProofs CallTied CallTx ServeModel ServeSpec ServeProofs ServeTx.
Import ListNotations.
Local Open Scope Z_scope.

(* ---------------------------------------------------------------- the transaction the routine starts in *)
Definition entered (y : semantics) (t : tid) (n : Z) : tid :=
  match y with
  | Automatic => if is_null t then mk_tid n me else t
  | NewBranch => if is_null t then mk_tid n me else mk_tid n (x_own t)
  | JoinOnly => t
  | Atomic => mk_tid n me
  | NoTransaction => null_tid
  end.
Lemma entered_wanted y t n : x_id (entered y t n) = wanted y t n.
Proof. destruct y; cbn; unfold is_null; try reflexivity; destruct (x_id t =? 0) eqn:E; reflexivity. Qed.
Definition fresh_txn (i : tid) (u : txn) : Prop := t_id u = i /\ t_susp u = false /\ t_state u = active /\ t_pend u = [].
Lemma involve_fresh rs i : fresh_txn i (involve rs (new_txn i)). Proof. split; [|split; [|split]]; reflexivity. Qed.
Record entry_spec (y : semantics) (t : tid) (c c1 : ctx) (r : result) : Prop := {
  en_empty : c_empty c1 = c_empty c;
  en_next : c_next c <= c_next c1;
  en_log : exists evs, since c c1 evs /\ Forall plain evs;
  en_txs : (exists u, c_txs c1 = c_txs c ++ [u] /\ fresh_txn (entered y t (c_next c)) u) \/ (r = Raised /\ c_txs c1 = c_txs c /\ owned (new_txn (entered y t (c_next c))) = true);
  en_result : r = RDone \/ r = Raised }.
Lemma join_entry e t c c1 r f y : entered y t (c_next c) = t -> (if f && communicates t c then (w_txs (c_txs c ++ [new_txn t]) c, Raised) else join e t c) = (c1, r) -> entry_spec y t c c1 r.
Proof.
  intros E. destruct (f && communicates t c).
  - intros [= <- <-]. split; cbn; auto; [lia|exists []; split; [unfold since; cbn; rewrite app_nil_r; reflexivity|constructor]|]. left. eexists. split; [reflexivity|]. rewrite E. split; [|split; [|split]]; reflexivity.
  - unfold join. destruct (is_null t).
    + intros [= <- <-]. split; cbn; auto; [lia|exists []; split; [unfold since; cbn; rewrite app_nil_r; reflexivity|constructor]|]. left. eexists. split; [reflexivity|]. rewrite E. split; [|split; [|split]]; reflexivity.
    + destruct (join_these _ _ _ _) as [[c2 t1] code] eqn:J. pose proof (join_these_plain _ _ _ _ _ _ _ J) as (evs & -> & P). apply join_these_grow in J. destruct J as (_ & ->).
      intros [= <- <-]. split; cbn; auto; [lia|exists evs; split; [reflexivity|exact P]| |destruct (tx_eqb code tx_ok); auto]. left. eexists. split; [reflexivity|]. rewrite E. apply involve_fresh.
Qed.
Lemma start_entry e y t c c1 r : entered y t (c_next c) = mk_tid (c_next c) me -> CtxModel.start e c = (c1, r) -> entry_spec y t c c1 r.
Proof.
  intros E. unfold CtxModel.start. destruct (start_these _ _ _ _ _) as [[c2 t1] code] eqn:J. apply start_these_grow in J. destruct J as ((evs & -> & P) & ->). pose proof (plain_all _ _ _ P ltac:(discriminate) ltac:(discriminate)) as PL.
  destruct (tx_eqb code tx_ok); intros [= <- <-]; (split; cbn; auto; [lia|exists evs; split; [reflexivity|exact PL]|]).
  - left. eexists. split; [reflexivity|]. rewrite E. apply involve_fresh.
  - right. rewrite E. auto.
Qed.
Lemma branch_entry e y t c c1 r f : is_null t = false -> entered y t (c_next c) = mk_tid (c_next c) (x_own t) -> enter_branch e t f c = (c1, r) -> entry_spec y t c c1 r.
Proof.
  intros N E. unfold enter_branch. destruct (f && communicates t c).
  - intros [= <- <-]. split; cbn; auto; [lia|exists []; split; [unfold since; cbn; rewrite app_nil_r; reflexivity|constructor]|]. left. eexists. split; [reflexivity|]. rewrite E. split; [|split; [|split]]; reflexivity.
  - unfold branch. rewrite N. set (c0 := match c_fixed c with [] => _ | _ => _ end). assert (G : exists ev0, c0 = grow ev0 (w_next (c_next c + 1) c) /\ Forall plain ev0).
    { unfold c0. destruct (c_fixed c); [exists []; rewrite grow_nil; auto|eexists; split; [reflexivity|constructor; [apply plain_other; discriminate|constructor]]]. }
    destruct G as (ev0 & -> & P0). destruct (start_these _ _ _ _ _) as [[c2 t1] code] eqn:J. apply start_these_grow in J. destruct J as ((evs & -> & P) & ->). pose proof (plain_all _ _ _ P ltac:(discriminate) ltac:(discriminate)) as PL.
    rewrite grow_grow. intros [= <- <-]. split; cbn; auto; [lia|exists (ev0 ++ evs); split; [reflexivity|apply Forall_app; auto]| |destruct (tx_eqb code tx_ok); auto].
    left. eexists. split; [reflexivity|]. rewrite E. apply involve_fresh.
Qed.
Lemma enter_spec e y t f c c1 r : enter e y t f c = (c1, r) -> entry_spec y t c c1 r.
Proof.
  unfold enter. destruct y.
  - destruct (is_null t) eqn:N; [apply start_entry|apply join_entry]; cbn; rewrite N; reflexivity.
  - apply join_entry. reflexivity.
  - apply start_entry. reflexivity.
  - intros H. apply (join_entry e null_tid c c1 r f NoTransaction eq_refl) in H. destruct H as [A B C D E]. split; auto.
  - destruct (is_null t) eqn:N; [apply start_entry; cbn; rewrite N; reflexivity|apply (branch_entry e NewBranch t c c1 r f N); cbn; rewrite N; reflexivity].
Qed.

(* ---------------------------------------------------------------- the ways a request can go *)
Definition conn_of (q : request) : list served := if q_conversation q then [V_connected (q_corr q)] else [].
Lemma not_invoked_early q fl m k : ~ invoked (reply_once q (f_reply fl) (w_rstate m first_reply) ++ acknowledge q fl k).
Proof. intros (y & g & J). unfold reply_once, acknowledge in J. apply in_app_iff in J. destruct (q_noreply q || f_reply fl), (f_ack fl), J as [J | J]; try (destruct J as [J | []]; discriminate J); try destruct J. Qed.
Inductive path (e : env) (q : request) (us : list input) (fin : ending) (fl : faults) (s s' : proc) (evs : list served) : Prop :=
| P_unknown : q_known q = false -> ~ invoked evs -> gone_wrong e q fl s [] = (s', evs) -> path e q us fin fl s s' evs
| P_early c1 r : q_known q = true -> ~ invoked evs -> enter e (q_semantics q) (q_tid q) (f_enter fl) (p_tx s) = (c1, r) -> gone_wrong e q fl (w_tx c1 s) [] = (s', evs) -> path e q us fin fl s s' evs
| P_invoked c1 out : q_known q = true -> enter e (q_semantics q) (q_tid q) (f_enter fl) (p_tx s) = (c1, RDone) -> out = conn_of q ++ [V_invoked (x_id (t_id (current c1))) (in_transaction (w_tx c1 s))] ->
    (exists h, xrun e us (w_tx c1 s) = (routine_end e q us fl s, h)) ->
    (let s2 := routine_end e q us fl s in
     match fin with
     | E_none => gone_wrong e q fl s2 out = (s', evs)
     | E_return success user data => gone_right e q fl (complement (q_conversation q) success user data first_reply) s2 out = (s', evs)
     | E_forward data l => gone_wrong e q fl s2 out = (s', evs) \/ (exists s3, p_tx s3 = p_tx s2 /\ gone_wrong e q fl s3 out = (s', evs)) \/
                           (owns (p_tx s2) = false /\ exists s3 m, p_tx s3 = p_tx s2 /\ finish e true None s3 = (s', m) /\ evs = out ++ V_forward (q_corr q) (q_tid q) (q_noreply q) data :: acknowledge q fl 0)
     end) -> path e q us fin fl s s' evs.
Lemma serve_path e q us fin fl s s' evs : serve e q us fin fl s = (s', evs) -> path e q us fin fl s s' evs.
Proof.
  unfold serve. destruct (q_known q) eqn:K; cbn [negb].
  2:{ intros H. apply P_unknown; auto. apply wrong_shape in H. destruct H as (m & k & ->). apply not_invoked_early. }
  destruct (enter _ _ _ _ _) as [c1 en] eqn:EN.
  assert (EARLY : gone_wrong e q fl (w_tx c1 s) [] = (s', evs) -> path e q us fin fl s s' evs). { intros H. apply (P_early _ _ _ _ _ _ _ _ c1 en); auto. apply wrong_shape in H. destruct H as (m & k & ->). apply not_invoked_early. }
  destruct (en_result _ _ _ _ _ (enter_spec _ _ _ _ _ _ _ EN)) as [-> | ->]; [|exact EARLY].
  destruct (q_conversation q && f_connect fl); [exact EARLY|]. cbv zeta. destruct (xrun e us (w_tx c1 s)) as [s2 h] eqn:X. assert (RE : routine_end e q us fl s = s2) by (unfold routine_end; rewrite EN; cbn [fst]; rewrite X; reflexivity).
  intros H. eapply (P_invoked _ _ _ _ _ _ _ _ c1); [exact K|exact EN|reflexivity|rewrite RE; eauto|]. cbv zeta. rewrite RE. destruct fin as [success user data|data l|]; [exact H| |exact H].
  unfold ServeModel.forward in H. destruct (owns (p_tx s2)) eqn:O; [left; exact H|]. destruct l as [[k|]| | |]; try (right; left; exists (w_corr (p_next s2 + 1) s2); split; [reflexivity|exact H]).
  right. right. split; [reflexivity|]. rewrite finish_no_fault in H by (right; exact O). destruct (finish_none e true (w_corr (p_next s2 + 1) s2)) as (s4 & E & _). rewrite E in H. injection H as <- <-. exists (w_corr (p_next s2 + 1) s2), (Some (snd (finalize e true (p_tx (w_corr (p_next s2 + 1) s2))))).
  split; [reflexivity|]. split; [exact E|]. rewrite <- !app_assoc. reflexivity.
Qed.
Lemma wrong_consumes e q fl s out s' evs : gone_wrong e q fl s out = (s', evs) -> exists m, finish e false (f_finalize fl) s = (s', m).
Proof. unfold gone_wrong. destruct (finish e false (f_finalize fl) s) as [s1 m]. intros [= <- _]. eauto. Qed.
Lemma right_consumes e q fl r s out s' evs : gone_right e q fl r s out = (s', evs) -> exists s1 m, finish e (r_state r =? m_ok) (f_finalize fl) s = (s1, m) /\ (s' = s1 \/ m = None /\ exists m', finish e (r_state r =? m_ok) None s1 = (s', m')).
Proof. unfold gone_right. destruct (finish e (r_state r =? m_ok) (f_finalize fl) s) as [s1 [m|]]; [intros [= <- _]; eauto 6|]. destruct (finish e _ None s1) as [s2 m] eqn:F. intros [= <- _]. eauto 10. Qed.
Lemma consumed e q us fin fl s s' evs : serve e q us fin fl s = (s', evs) -> c_txs (p_tx s') = [].
Proof.
  assert (W : forall s0 out, gone_wrong e q fl s0 out = (s', evs) -> c_txs (p_tx s') = []) by (intros s0 out H; apply wrong_consumes in H; destruct H as (m & H); exact (finish_consumes _ _ _ _ _ _ H)).
  intros H. destruct (serve_path _ _ _ _ _ _ _ _ H) as [_ _ G|c1 r _ _ _ G|c1 out _ _ _ _ G]; [exact (W _ _ G)|exact (W _ _ G)|]. cbv zeta in G. destruct fin as [success user data|data l|].
  - apply right_consumes in G. destruct G as (s1 & m & F & [-> | (_ & m' & F')]); [exact (finish_consumes _ _ _ _ _ _ F)|exact (finish_consumes _ _ _ _ _ _ F')].
  - destruct G as [G | [(s3 & _ & G) | (_ & s3 & m & _ & F & _)]]; [exact (W _ _ G)|exact (W _ _ G)|exact (finish_consumes _ _ _ _ _ _ F)].
  - exact (W _ _ G).
Qed.

(* ---------------------------------------------------------------- a server between two requests *)
Definition next_le (c c' : ctx) : Prop := c_next c <= c_next c'.
Lemma routine_next e us s s' h : Forall user_input us -> empty_ok (p_tx s) -> xrun e us s = (s', h) -> next_le (p_tx s) (p_tx s') /\ empty_ok (p_tx s').
Proof.
  apply (q_xrun e next_le); unfold next_le.
  - intros c; lia.
  - intros a b c; lia.
  - intros i c U EO. assert (J : not_joined 1 i) by (destruct i; cbn in U |- *; auto; contradiction). exact (proj1 (step_evolves e i c 1 EO ltac:(lia) J)).
  - intros c EO. destruct (sync_suspend e c) as [t1 ok] eqn:E. exact (proj1 (proj1 (suspend_evolves e c t1 ok 1 EO E))).
  - intros c EO. exact (proj1 (proj1 (resume_evolves e c 1 EO))).
Qed.
Definition ready (c : ctx) : Prop := empty_ok c /\ 0 < c_next c.
Lemma empty_of c c' : c_empty c' = c_empty c -> empty_ok c -> empty_ok c'. Proof. unfold empty_ok. intros ->. auto. Qed.
Lemma finish_ready e b f s s1 m : finish e b f s = (s1, m) -> ready (p_tx s) -> ready (p_tx s1) /\ c_next (p_tx s1) = c_next (p_tx s).
Proof.
  assert (N : forall s1 m, finish e b None s = (s1, m) -> ready (p_tx s) -> ready (p_tx s1) /\ c_next (p_tx s1) = c_next (p_tx s)).
  { intros s2 m2 H R. destruct (finish_none e b s) as (s3 & E & P). rewrite E in H. injection H as <- <-. rewrite P. destruct (finalize e b (p_tx s)) as [c1 k] eqn:F. apply finalize_grow in F. destruct F as (evs & -> & _). split; [exact R|reflexivity]. }
  destruct f as [n|]; [|exact (N s1 m)]. unfold finish. destruct (owns (p_tx s)); [|exact (N s1 m)]. destruct (discards_same (pending_of (p_tx s)) s) as (T & _). rewrite T. destruct (finalize e b (p_tx s)) as [c1 k] eqn:F. apply finalize_grow in F. destruct F as (evs & -> & _).
  intros [= <- <-] R. split; [exact R|reflexivity].
Qed.
Lemma enter_ready e y t f c c1 r : enter e y t f c = (c1, r) -> ready c -> ready c1.
Proof. intros H (A & B). apply enter_spec in H. split; [exact (empty_of _ _ (en_empty _ _ _ _ _ H) A)|]. pose proof (en_next _ _ _ _ _ H). lia. Qed.
Lemma serve_ready e q us fin fl s s' evs : Forall user_input us -> ready (p_tx s) -> serve e q us fin fl s = (s', evs) -> ready (p_tx s') /\ c_next (p_tx s) <= c_next (p_tx s').
Proof.
  intros F R H.
  assert (W : forall s0 out, ready (p_tx s0) -> c_next (p_tx s) <= c_next (p_tx s0) -> gone_wrong e q fl s0 out = (s', evs) -> ready (p_tx s') /\ c_next (p_tx s) <= c_next (p_tx s')).
  { intros s0 out A B G. apply wrong_consumes in G. destruct G as (m & G). destruct (finish_ready _ _ _ _ _ _ G A) as (C & D). split; [exact C|lia]. }
  destruct (serve_path _ _ _ _ _ _ _ _ H) as [_ _ G|c1 r _ _ EN G|c1 out _ EN _ (h & X) G].
  - exact (W _ _ R ltac:(lia) G).
  - exact (W (w_tx c1 s) _ (enter_ready _ _ _ _ _ _ _ EN R) (en_next _ _ _ _ _ (enter_spec _ _ _ _ _ _ _ EN)) G).
  - pose proof (enter_ready _ _ _ _ _ _ _ EN R) as R1. pose proof (en_next _ _ _ _ _ (enter_spec _ _ _ _ _ _ _ EN)) as N1. pose proof (routine_next e us (w_tx c1 s) _ _ F (proj1 R1) X) as (N2 & E2). unfold next_le in N2. cbn [p_tx w_tx] in N2.
    set (s2 := routine_end e q us fl s) in *. assert (R2 : ready (p_tx s2)) by (split; [exact E2|unfold ready in R1; lia]). assert (N3 : c_next (p_tx s) <= c_next (p_tx s2)) by lia. cbv zeta in G.
    destruct fin as [success user data|data l|].
    + apply right_consumes in G. destruct G as (s1 & m & G & G'). destruct (finish_ready _ _ _ _ _ _ G R2) as (A & B). destruct G' as [-> | (_ & m' & G')]; [split; [exact A|lia]|]. destruct (finish_ready _ _ _ _ _ _ G' A) as (C & D). split; [exact C|lia].
    + destruct G as [G | [(s3 & E & G) | (_ & s3 & m & E & G & _)]]; [exact (W _ _ R2 N3 G)|apply (W s3 out); [rewrite E; exact R2|rewrite E; exact N3|exact G]|].
      destruct (finish_ready _ _ _ _ _ _ G ltac:(rewrite E; exact R2)) as (A & B). split; [exact A|rewrite B, E; exact N3].
    + exact (W _ _ R2 N3 G).
Qed.
Lemma arrive_tx c r s : p_tx (arrive c r s) = p_tx s. Proof. unfold arrive. destruct (mem _ _); reflexivity. Qed.
Lemma srun_ready e js : forall s s' evs, Forall user_job js -> ready (p_tx s) -> c_txs (p_tx s) = [] -> srun e js s = (s', evs) -> ready (p_tx s') /\ c_txs (p_tx s') = [] /\ c_next (p_tx s) <= c_next (p_tx s').
Proof.
  induction js as [|j js IH]; intros s s' evs F R N; cbn [srun]; [intros [= <- _]; split; [exact R|]; split; [exact N|lia]|].
  destruct (sstep e j s) as [s1 o1] eqn:S1. destruct (srun e js s1) as [s2 o2] eqn:S2. intros [= <- _]. pose proof (Forall_inv F) as F1. pose proof (Forall_inv_tail F) as F2.
  assert (X : ready (p_tx s1) /\ c_txs (p_tx s1) = [] /\ c_next (p_tx s) <= c_next (p_tx s1)).
  { destruct j as [q us fin fl|c r]; cbn [sstep] in S1.
    - destruct (serve_ready _ _ _ _ _ _ _ _ F1 R S1) as (A & B). split; [exact A|]. split; [exact (consumed _ _ _ _ _ _ _ _ S1)|exact B].
    - injection S1 as <- _. rewrite arrive_tx. split; [exact R|]. split; [exact N|lia]. }
  destruct X as (A & B & C). destruct (IH s1 s2 o2 F2 A B S2) as (D & E & G). split; [exact D|]. split; [exact E|lia].
Qed.
Lemma start_ready dyn fix0 : ready (p_tx (CallModel.start dyn fix0)) /\ c_txs (p_tx (CallModel.start dyn fix0)) = [].
Proof. split; [split; [split; reflexivity|cbn; lia]|reflexivity]. Qed.
Lemma reach_ready e dyn fix0 js s evs : Forall user_job js -> srun e js (CallModel.start dyn fix0) = (s, evs) -> ready (p_tx s) /\ c_txs (p_tx s) = [].
Proof. intros F H. destruct (start_ready dyn fix0) as (A & B). destruct (srun_ready _ _ _ _ _ F A B H) as (C & D & _). auto. Qed.

Lemma current_single c u : c_txs c = [u] -> t_susp u = false -> current c = u.
Proof. intros E S0. unfold current. rewrite E. cbn. rewrite S0. reflexivity. Qed.
Lemma reply_once_uninvoked q f r x b : ~ In (V_invoked x b) (reply_once q f r). Proof. unfold reply_once. destruct (q_noreply q || f); [intros []|intros [H | []]; discriminate]. Qed.
Lemma ack_uninvoked q fl k x b : ~ In (V_invoked x b) (acknowledge q fl k). Proof. unfold acknowledge. destruct (f_ack fl); [intros []|intros [H | []]; discriminate]. Qed.
Lemma twice_uninvoked q fl r x b : ~ In (V_invoked x b) (reply_twice q fl r). Proof. unfold reply_twice. destruct (f_reply fl); apply reply_once_uninvoked. Qed.
Lemma invoked_in e q us fin fl s s' evs x b : c_txs (p_tx s) = [] -> serve e q us fin fl s = (s', evs) -> In (V_invoked x b) evs -> x = wanted (q_semantics q) (q_tid q) (c_next (p_tx s)) /\ b = negb (x =? 0).
Proof.
  intros N H I. destruct (serve_path _ _ _ _ _ _ _ _ H) as [_ NI G|c1 r _ NI EN G|c1 out _ EN OUT _ G]; [destruct NI; exists x, b; exact I|destruct NI; exists x, b; exact I|].
  assert (J : In (V_invoked x b) out).
  { assert (W : forall s0, gone_wrong e q fl s0 out = (s', evs) -> In (V_invoked x b) out).
    { intros s0 W. apply wrong_shape in W. destruct W as (m & k & ->). apply in_app_iff in I. destruct I as [I | I]; [exact I|]. apply in_app_iff in I. destruct I as [I | I]; [destruct (reply_once_uninvoked _ _ _ _ _ I)|destruct (ack_uninvoked _ _ _ _ _ I)]. }
    cbv zeta in G. destruct fin as [success user data|data l|].
    - apply right_shape in G. destruct G as (m & k & [-> | ->]); apply in_app_iff in I; (destruct I as [I | I]; [exact I|]); apply in_app_iff in I; (destruct I as [I | I]; [|destruct (ack_uninvoked _ _ _ _ _ I)]); [destruct (twice_uninvoked _ _ _ _ _ I)|destruct (reply_once_uninvoked _ _ _ _ _ I)].
    - destruct G as [G | [(s3 & _ & G) | (_ & s3 & m & _ & _ & ->)]]; [exact (W _ G)|exact (W _ G)|]. apply in_app_iff in I. destruct I as [I | [I | I]]; [exact I|discriminate|destruct (ack_uninvoked _ _ _ _ _ I)].
    - exact (W _ G). }
  destruct (en_txs _ _ _ _ _ (enter_spec _ _ _ _ _ _ _ EN)) as [(u & E & (ID & SU & _)) | (C & _)]; [|discriminate]. rewrite N in E. cbn [app] in E. pose proof (current_single c1 u E SU) as CU.
  subst out. apply in_app_iff in J. destruct J as [J | [J | []]]; [unfold conn_of in J; destruct (q_conversation q); [destruct J as [J | []]; discriminate J|destruct J]|].
  injection J as <- <-. unfold in_transaction. cbn [p_tx w_tx]. rewrite CU, ID, entered_wanted. split; [reflexivity|]. unfold is_null. rewrite entered_wanted. reflexivity.
Qed.

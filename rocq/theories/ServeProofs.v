From Coq Require Import ZArith List Bool Lia Permutation.
From Verif Require Import CodesModel CtxModel CtxSpec CtxProofs CtxXa CtxMore CallModel CallSpec CallProofs CallTied CallTx ServeModel ServeSpec.
Import ListNotations.
Local Open Scope Z_scope.

(* ---------------------------------------------------------------- finish *)
Lemma finish_none e b s : exists s1, finish e b None s = (s1, Some (snd (finalize e b (p_tx s)))) /\ p_tx s1 = fst (finalize e b (p_tx s)).
Proof.
  unfold finish. cbn [xstep step]. destruct (discards_same (pending_of (p_tx s)) s) as (T & _). rewrite T. destruct (finalize e b (p_tx s)) as [c1 m]. eexists. split; [reflexivity|reflexivity].
Qed.
Lemma finish_consumes e b f s s1 m : finish e b f s = (s1, m) -> c_txs (p_tx s1) = [].
Proof.
  assert (N : forall s1 m, finish e b None s = (s1, m) -> c_txs (p_tx s1) = []).
  { intros s2 m2 H. destruct (finish_none e b s) as (s3 & E & P). rewrite E in H. injection H as <- <-. rewrite P. destruct (finalize e b (p_tx s)) as [c1 k] eqn:F. apply finalize_grow in F. destruct F as (evs & -> & _). reflexivity. }
  destruct f as [n|]; [|exact (N s1 m)]. unfold finish. destruct (owns (p_tx s)); [|exact (N s1 m)]. destruct (finalize e b _) as [c1 k]. intros [= <- <-]. reflexivity.
Qed.
Lemma finish_no_fault e b f s : (f = None \/ owns (p_tx s) = false) -> finish e b f s = finish e b None s.
Proof. intros [-> | O]; [reflexivity|]. destruct f; [|reflexivity]. unfold finish. rewrite O. reflexivity. Qed.

(* ---------------------------------------------------------------- C63 *)
Lemma acks_app a b : acks (a ++ b) = acks a ++ acks b. Proof. apply filter_app. Qed.
Lemma answers_app a b : answers (a ++ b) = answers a ++ answers b. Proof. apply filter_app. Qed.
Lemma reply_once_acks q f r : acks (reply_once q f r) = []. Proof. unfold reply_once. destruct (q_noreply q || f); reflexivity. Qed.
Lemma reply_twice_acks q fl r : acks (reply_twice q fl r) = []. Proof. unfold reply_twice. destruct (f_reply fl); apply reply_once_acks. Qed.
Lemma wrong_shape e q fl s out s' evs : gone_wrong e q fl s out = (s', evs) -> exists m code, evs = out ++ reply_once q (f_reply fl) (w_rstate m first_reply) ++ acknowledge q fl code.
Proof. unfold gone_wrong. destruct (finish _ _ _ _) as [s1 [m|]]; intros [= _ <-]; [exists m|exists m_ok]; eexists; reflexivity. Qed.
Lemma right_shape e q fl r s out s' evs : gone_right e q fl r s out = (s', evs) ->
  exists m code, evs = out ++ reply_twice q fl (w_rstate m r) ++ acknowledge q fl code \/ evs = out ++ reply_once q (f_reply fl) (w_rstate m r) ++ acknowledge q fl code.
Proof.
  unfold gone_right. destruct (finish _ _ _ _) as [s1 [m|]]; [intros [= _ <-]; exists m; eexists; left; reflexivity|].
  destruct (finish _ _ None s1) as [s2 [m|]]; intros [= _ <-]; [exists m|exists (r_state r)]; eexists; right; [reflexivity|]. unfold w_rstate. destruct r; reflexivity.
Qed.

(* the ways a request can go *)
Inductive outcome (q : request) (fin : ending) (fl : faults) : list served -> Prop :=
| Oc_early m k : outcome q fin fl (reply_once q (f_reply fl) (w_rstate m first_reply) ++ acknowledge q fl k)
| Oc_wrong conn x f m k : (forall v, In v conn -> exists c, v = V_connected c) -> (forall success user data, fin <> E_return success user data) ->
    outcome q fin fl (conn ++ V_invoked x f :: reply_once q (f_reply fl) (w_rstate m first_reply) ++ acknowledge q fl k)
| Oc_right conn x f m success user data k rs : (forall v, In v conn -> exists c, v = V_connected c) -> fin = E_return success user data ->
    (let r := w_rstate m (complement (q_conversation q) success user data first_reply) in rs = reply_twice q fl r \/ rs = reply_once q (f_reply fl) r) ->
    outcome q fin fl (conn ++ V_invoked x f :: rs ++ acknowledge q fl k)
| Oc_forward conn x f data : (forall v, In v conn -> exists c, v = V_connected c) -> fin = E_forward data (L_idle None) ->
    outcome q fin fl (conn ++ V_invoked x f :: V_forward (q_corr q) (q_tid q) (q_noreply q) data :: acknowledge q fl 0).

Lemma serve_outcome e q us fin fl s s' evs : serve e q us fin fl s = (s', evs) -> outcome q fin fl evs.
Proof.
  unfold serve. destruct (negb (q_known q)). { intros H. apply wrong_shape in H. destruct H as (m & k & ->). apply (Oc_early q fin fl m k). }
  destruct (enter _ _ _ _ _) as [c1 en]. assert (EARLY : forall s0, gone_wrong e q fl s0 [] = (s', evs) -> outcome q fin fl evs). { intros s0 H. apply wrong_shape in H. destruct H as (m & k & ->). apply (Oc_early q fin fl m k). }
  assert (MAIN : (if q_conversation q && f_connect fl then gone_wrong e q fl (w_tx c1 s) []
        else
          let out := (if q_conversation q then [V_connected (q_corr q)] else []) ++ [V_invoked (x_id (t_id (current c1))) (in_transaction (w_tx c1 s))] in
          let '(s2, _) := xrun e us (w_tx c1 s) in
          match fin with
          | E_none => gone_wrong e q fl s2 out
          | E_return success user data => gone_right e q fl (complement (q_conversation q) success user data first_reply) s2 out
          | E_forward data l =>
              match ServeModel.forward l s2 with
              | (s3, false) => gone_wrong e q fl s3 out
              | (s3, true) =>
                  let out1 := out ++ [V_forward (q_corr q) (q_tid q) (q_noreply q) data] in
                  match finish e true (f_finalize fl) s3 with
                  | (s4, Some _) => (s4, out1 ++ acknowledge q fl 0)
                  | (s4, None) => gone_wrong e q fl s4 out1
                  end
              end
          end) = (s', evs) -> outcome q fin fl evs).
  { destruct (q_conversation q && f_connect fl); [apply EARLY|]. cbv zeta. set (conn := if q_conversation q then [V_connected (q_corr q)] else []).
    assert (CO : forall v, In v conn -> exists c, v = V_connected c) by (unfold conn; intros v; destruct (q_conversation q); [intros [<- | []]; eauto|intros []]).
    destruct (xrun e us (w_tx c1 s)) as [s2 h]. destruct fin as [success user data|data l|].
    - intros H. apply right_shape in H. destruct H as (m & k & [-> | ->]); rewrite <- app_assoc; eapply (Oc_right q _ fl conn _ _ m); eauto; cbv zeta; auto.
    - destruct (ServeModel.forward l s2) as [s3 ok] eqn:F. unfold ServeModel.forward in F. destruct ok.
      + destruct (owns (p_tx s2)) eqn:OW; [discriminate|]. destruct l as [[k|]| | |]; try discriminate. injection F as <-.
        rewrite finish_no_fault by (right; exact OW). destruct (finish_none e true (w_corr (p_next s2 + 1) s2)) as (s4 & E & _). rewrite E. intros [= _ <-]. rewrite <- !app_assoc. cbn [app]. apply Oc_forward; auto.
      + intros H. apply wrong_shape in H. destruct H as (m & k & ->). rewrite <- app_assoc. apply Oc_wrong; [exact CO|discriminate].
    - intros H. apply wrong_shape in H. destruct H as (m & k & ->). rewrite <- app_assoc. apply Oc_wrong; [exact CO|discriminate]. }
  destruct en; try exact MAIN. apply EARLY.
Qed.

Lemma conn_acks conn : (forall v, In v conn -> exists c, v = V_connected c) -> acks conn = [] /\ answers conn = [].
Proof. induction conn as [|v conn IH]; intros C; [split; reflexivity|]. destruct (C v (or_introl eq_refl)) as (c & ->). cbn. apply IH. intros w I. apply C. right. exact I. Qed.

Lemma one_ack e q us fin fl s s' evs : serve e q us fin fl s = (s', evs) -> f_ack fl = false -> exists front code, evs = front ++ [V_ack (q_corr q) code] /\ acks front = [].
Proof.
  intros H A. apply serve_outcome in H. assert (K : forall k, acknowledge q fl k = [V_ack (q_corr q) k]) by (intros k; unfold acknowledge; rewrite A; reflexivity).
  destruct H as [m k|conn x f m k C _|conn x f m success user data k rs C _ R|conn x f data C _]; rewrite K.
  - eexists _, k. split; [reflexivity|]. apply reply_once_acks.
  - exists (conn ++ V_invoked x f :: reply_once q (f_reply fl) (w_rstate m first_reply)), k. rewrite <- app_assoc. split; [reflexivity|]. rewrite acks_app, (proj1 (conn_acks conn C)). cbn. apply reply_once_acks.
  - exists (conn ++ V_invoked x f :: rs), k. rewrite <- app_assoc. split; [reflexivity|]. rewrite acks_app, (proj1 (conn_acks conn C)). cbn. cbv zeta in R. destruct R as [-> | ->]; [apply reply_twice_acks|apply reply_once_acks].
  - exists (conn ++ [V_invoked x f; V_forward (q_corr q) (q_tid q) (q_noreply q) data]), 0. rewrite <- app_assoc. split; [reflexivity|]. rewrite acks_app, (proj1 (conn_acks conn C)). reflexivity.
Qed.

Lemma ack_answers q fl k : answers (acknowledge q fl k) = []. Proof. unfold acknowledge. destruct (f_ack fl); reflexivity. Qed.
Lemma once_answers q f r : answers (reply_once q f r) = reply_once q f r. Proof. unfold reply_once. destruct (q_noreply q || f); reflexivity. Qed.
Lemma twice_answers q fl r : answers (reply_twice q fl r) = reply_twice q fl r. Proof. unfold reply_twice. destruct (f_reply fl); apply once_answers. Qed.
(* what the answers are *)
Lemma outcome_answers q fin fl evs : outcome q fin fl evs ->
  (exists r, answers evs = reply_twice q fl r \/ answers evs = reply_once q (f_reply fl) r) \/ exists data, fin = E_forward data (L_idle None) /\ answers evs = [V_forward (q_corr q) (q_tid q) (q_noreply q) data].
Proof.
  destruct 1 as [m k|conn x f m k C _|conn x f m success user data k rs C _ R|conn x f data C E].
  - left. eexists. right. rewrite answers_app, ack_answers, once_answers, app_nil_r. reflexivity.
  - left. eexists. right. rewrite answers_app, (proj2 (conn_acks conn C)). cbn [app answers filter]. rewrite answers_app, ack_answers, app_nil_r, once_answers. reflexivity.
  - left. eexists. cbv zeta in R. rewrite answers_app, (proj2 (conn_acks conn C)). cbn [app answers filter]. rewrite answers_app, ack_answers, app_nil_r. destruct R as [-> | ->]; [left; apply twice_answers|right; apply once_answers].
  - right. exists data. split; [exact E|]. rewrite answers_app, (proj2 (conn_acks conn C)). cbn [app answers filter]. rewrite ack_answers. reflexivity.
Qed.
Lemma one_answer e q us fin fl s s' evs : serve e q us fin fl s = (s', evs) -> q_noreply q = false -> f_reply fl = false ->
  (exists r, answers evs = [V_reply (q_corr q) r]) \/ exists data, fin = E_forward data (L_idle None) /\ answers evs = [V_forward (q_corr q) (q_tid q) false data].
Proof.
  intros H N F. apply serve_outcome, outcome_answers in H. destruct H as [(r & H) | (data & E & H)]; [left|right; exists data; rewrite H, N; auto].
  unfold reply_twice, reply_once in H. rewrite F, N in H. cbn [orb] in H. exists (normalize r). tauto.
Qed.
Lemma at_most_one e q us fin fl s s' evs : serve e q us fin fl s = (s', evs) ->
  (length (answers evs) <= 1)%nat /\ (q_noreply q = true -> ~ replied_to evs) /\ forall v, In v (answers evs) -> (exists r, v = V_reply (q_corr q) r) \/ exists data, v = V_forward (q_corr q) (q_tid q) (q_noreply q) data.
Proof.
  intros H. apply serve_outcome, outcome_answers in H.
  assert (X : forall f r, (length (reply_once q f r) <= 1)%nat /\ (q_noreply q = true -> reply_once q f r = []) /\ forall v, In v (reply_once q f r) -> exists r, v = V_reply (q_corr q) r).
  { intros f r. unfold reply_once. destruct (q_noreply q); cbn [orb]; [|destruct f]; (split; [cbn; lia|]); (split; [congruence|]); intros v I; try destruct I as [<- | []]; try destruct I. eauto. }
  assert (RA : forall c r, In (V_reply c r) evs -> In (V_reply c r) (answers evs)) by (intros c r I; apply filter_In; auto).
  destruct H as [(r & H) | (data & E & H)].
  - assert (Y : exists f, answers evs = reply_once q f r). { unfold reply_twice in H. destruct (f_reply fl); destruct H as [H | H]; eauto. }
    destruct Y as (f & Y). destruct (X f r) as (L & Q & V). rewrite Y. split; [exact L|]. split; [|intros v I; left; exact (V v I)]. intros N (c & r' & I). apply RA in I. rewrite Y, (Q N) in I. exact I.
  - rewrite H. split; [cbn; lia|]. split; [|intros v [<- | []]; right; eauto]. intros N (c & r & I). apply RA in I. rewrite H in I. destruct I as [I | []]. discriminate.
Qed.

Lemma once_in q f r c r' : In (V_reply c r') (reply_once q f r) -> r' = normalize r.
Proof. unfold reply_once. destruct (q_noreply q || f); [intros []|intros [[= _ <-] | []]]. reflexivity. Qed.
Lemma ack_in q fl k c r : ~ In (V_reply c r) (acknowledge q fl k). Proof. unfold acknowledge. destruct (f_ack fl); [intros []|intros [H | []]; discriminate]. Qed.
Lemma content e q us fin fl s s' evs c r : serve e q us fin fl s = (s', evs) -> In (V_reply c r) evs ->
  (invoked evs /\ exists success user data, fin = E_return success user data /\ says success user data r) \/
  ((~ invoked evs \/ forall success user data, fin <> E_return success user data) /\ r_code r = TPESVCERR /\ r_user r = 0 /\ r_data r = no_data).
Proof.
  intros H I. apply serve_outcome in H.
  assert (W : forall m, r_code (normalize (w_rstate m first_reply)) = TPESVCERR /\ r_user (normalize (w_rstate m first_reply)) = 0 /\ r_data (normalize (w_rstate m first_reply)) = no_data) by (intros m; cbn; auto).
  assert (IC : forall conn v, (forall v, In v conn -> exists c, v = V_connected c) -> In v conn -> exists c, v = V_connected c) by auto.
  destruct H as [m k|conn x f m k C NE|conn x f m success user data k rs C FI R|conn x f data C E].
  - right. split.
    + left. intros (y & g & J). unfold reply_once, acknowledge in J. apply in_app_iff in J. destruct (q_noreply q || f_reply fl), (f_ack fl), J as [J | J]; try (destruct J as [J | []]; discriminate J); try destruct J.
    + apply in_app_iff in I. destruct I as [I | I]; [|destruct (ack_in _ _ _ _ _ I)]. apply once_in in I. subst r. apply W.
  - right. split; [right; exact NE|]. apply in_app_iff in I. destruct I as [I | [I | I]]; [destruct (C _ I); discriminate|discriminate|]. apply in_app_iff in I. destruct I as [I | I]; [|destruct (ack_in _ _ _ _ _ I)]. apply once_in in I. subst r. apply W.
  - left. split; [exists x, f; apply in_app_iff; right; left; reflexivity|]. exists success, user, data. split; [exact FI|].
    apply in_app_iff in I. destruct I as [I | [I | I]]; [destruct (C _ I); discriminate|discriminate|]. apply in_app_iff in I. destruct I as [I | I]; [|destruct (ack_in _ _ _ _ _ I)].
    assert (RR : r = normalize (w_rstate m (complement (q_conversation q) success user data first_reply))). { cbv zeta in R. unfold reply_twice in R. destruct (f_reply fl), R as [-> | ->]; apply once_in in I; exact I. }
    subst r. unfold normalize, w_rstate, complement. cbn [r_code r_state r_user r_data]. destruct success; cbn [Z.eqb].
    + destruct (m =? m_ok) eqn:M; cbn [andb negb]; (split; [reflexivity|]); (split; [reflexivity|]); [left|right]; (split; [reflexivity|]); [apply Z.eqb_eq in M|apply Z.eqb_neq in M]; exact M.
    + split; [reflexivity|]. split; reflexivity.
  - exfalso. apply in_app_iff in I. destruct I as [I | [I | [I | I]]]; [destruct (C _ I); discriminate|discriminate|discriminate|destruct (ack_in _ _ _ _ _ I)].
Qed.

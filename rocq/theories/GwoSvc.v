(* What the service-manager (SvcModel) makes of what the outbound sends to it. *)
From Coq Require Import ZArith List Bool Lia.
From Verif Require SvcModel SvcLemmas.
From Verif Require Import GwoModel GwoSpec.
Import ListNotations.
Local Open Scope Z_scope.

(* the messages to the service-manager; a connection is a process handle with the pid of the outbound and the ipc of the connection,
   connection.h:186-193; handle.cpp:138-142, 690-704, 917-926. The timeout of a service is left out *)
Definition to_manager (pid alias order : Z) (e : effect) : list SvcModel.input :=
  match e with
  | Advertise c ss => [SvcModel.I_concurrent (SvcModel.mk_h pid c) alias SvcModel.Dir_update order (map (fun x => (fst x, snd x, 0)) ss) []]
  | Reset c => [SvcModel.I_concurrent (SvcModel.mk_h pid c) alias SvcModel.Dir_reset order [] []]
  | Unadvertise c x => [SvcModel.I_advertise (SvcModel.mk_h pid c) alias [] [x]]
  | _ => []
  end.

Section S.
Import SvcModel SvcLemmas.
(* all that decides which concurrent instance a lookup gets *)
Definition routes_same (s s' : SvcModel.state) : Prop :=
  SvcModel.s_con s' = s_con s /\ s_names s' = s_names s /\
  forall vi, option_map (fun v => (v_name v, v_conc v, v_prio v)) (get (s_svc s') vi) = option_map (fun v => (v_name v, v_conc v, v_prio v)) (get (s_svc s) vi).
Lemma routes_same_refl s : routes_same s s.
Proof. repeat split. Qed.
Lemma routes_same_trans s s1 s2 : routes_same s s1 -> routes_same s1 s2 -> routes_same s s2.
Proof. intros [A1 [B1 C1]] [A2 [B2 C2]]. split; [congruence|]. split; [congruence|]. intro vi. now rewrite C2, C1. Qed.
Lemma remove_seq_routes i ns s : routes_same s (remove_seq_services i ns s) /\ s_pend (remove_seq_services i ns s) = s_pend s.
Proof.
  unfold remove_seq_services. generalize (indexes (s_svc s)) as l. intro l. revert s. induction l as [|v l IH]; intro s; cbn; [split; [apply routes_same_refl|auto]|].
  destruct (get (s_svc s) v) as [x|] eqn:G; [|apply IH]. destruct (memz (v_name x) ns); [|apply IH].
  match goal with |- context [fold_left _ l ?S] => set (s1 := S); destruct (IH s1) as [A B]; split; [|rewrite B; reflexivity]; eapply routes_same_trans; [|exact A] end.
  split; [reflexivity|]. split; [reflexivity|]. intro vi. cbn. rewrite get_upd. destruct (Nat.eqb_spec vi v) as [-> |]; [|reflexivity]. rewrite G. reflexivity.
Qed.
Lemma remove_seq_proc i ns s j q : get (s_seq s) j = Some q -> q_serv q = [] -> exists q', get (s_seq (remove_seq_services i ns s)) j = Some q' /\ q_serv q' = [] /\ q_proc q' = q_proc q.
Proof.
  unfold remove_seq_services. generalize (indexes (s_svc s)) as l. intro l. revert s q. induction l as [|v l IH]; intros s q G E; cbn; [eauto|].
  destruct (get (s_svc s) v) as [x|]; [|eauto]. destruct (memz (v_name x) ns); [|eauto].
  match goal with |- context [fold_left _ l ?S] => set (s1 := S) end.
  assert (X : exists q1, get (s_seq s1) j = Some q1 /\ q_serv q1 = [] /\ q_proc q1 = q_proc q).
  { subst s1. cbn. rewrite get_upd. destruct (Nat.eqb_spec j i) as [-> |]; [|eauto]. rewrite G. cbn. eexists. split; [reflexivity|]. cbn. rewrite E. auto. }
  destruct X as [q1 [X1 [X2 X3]]]. destruct (IH s1 q1 X1 X2) as [q' [Y1 [Y2 Y3]]]. exists q'. split; auto. split; auto. congruence.
Qed.
Lemma unadvertise_ineffective cfg e h alias x s s' o : h_valid h = true -> find_seq (h_ipc h) s = None -> step cfg e (I_advertise h alias [] [x]) s = (s', o) ->
  routes_same s s' /\ o = [] /\ s_pend s' = s_pend s /\ exists i q, get (s_seq s') i = Some q /\ q_proc q = h.
Proof.
  intros V F. cbn -[advertise]. unfold advertise. rewrite V. cbn -[find_or_add_seq mem remove_seq_services serve_first]. unfold find_or_add_seq. rewrite F. destruct (insert (mk_q h None c_nil []) (s_seq s)) as [l i] eqn:I.
  destruct (insert_spec _ _ _ _ I) as [I1 I2].
  assert (G : get l i = Some (mk_q h None c_nil [])) by (rewrite I2, Nat.eqb_refl; reflexivity).
  change (s_disabled (with_seq l s)) with (s_disabled s). destruct (mem i (s_disabled s)).
  - intro H. injection H as <- <-. split; [repeat split|]. split; auto. split; auto. exists i. eexists. split; [exact G|reflexivity].
  - destruct (remove_seq_routes i [x] (with_seq l s)) as [A B]. destruct (remove_seq_proc i [x] (with_seq l s) i _ G eq_refl) as [q [Q1 [Q2 Q3]]].
    unfold serve_first. rewrite Q1.
    assert (PF : forall a, provides q (remove_seq_services i [x] (with_seq l s)) a = false) by (intro a; unfold provides; rewrite Q2; destruct (lookup_name _ _); reflexivity).
    assert (N : forall p, extract_first (provides q (remove_seq_services i [x] (with_seq l s))) p = None).
    { induction p as [|a p IH]; [reflexivity|]. cbn -[provides remove_seq_services]. now rewrite PF, IH. }
    rewrite N. intro H. injection H as <- <-. split; [|split; [auto|split; [exact B|exists i, q; auto]]].
    eapply routes_same_trans; [|exact A]. repeat split.
Qed.
End S.

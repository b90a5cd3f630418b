(* A call that isn't acknowledged in time is reported to its caller. *)
From Coq Require Import ZArith List Bool Lia.
From Verif Require Import FanModel SvcModel SvcSpec SvcLemmas SvcInv SvcStep SvcRes SvcCount SvcDead.
Import ListNotations.
Local Open Scope Z_scope.

(* services stay *)
Definition smono (s s' : state) : Prop := forall vi v, get (s_svc s) vi = Some v -> exists v', get (s_svc s') vi = Some v'.
Lemma smono_refl s : smono s s. Proof. intros vi v H. eauto. Qed.
Lemma smono_trans a b c : smono a b -> smono b c -> smono a c.
Proof. intros H1 H2 vi v H. destruct (H1 _ _ H) as (v' & H'). eauto. Qed.
Lemma smono_eq s s' : s_svc s' = s_svc s -> smono s s'. Proof. intros E vi v H. rewrite E. eauto. Qed.
Lemma smono_upd s vi f : smono s (with_svc (upd vi f (s_svc s)) s).
Proof. intros k v H. cbn. rewrite get_upd. destruct (Nat.eqb_spec k vi) as [->|]; [rewrite H; cbn|]; eauto. Qed.
Lemma smono_map s f : smono s (map_svc f s).
Proof. intros k v H. cbn. rewrite get_map, H. cbn. eauto. Qed.
Lemma smono_fold {A} (g : state -> A -> state) l : (forall s x, smono s (g s x)) -> forall s, smono s (fold_left g l s).
Proof. intros Hg. induction l as [|x l IH]; intros s; cbn [fold_left]; [apply smono_refl|]. eapply smono_trans; [apply Hg|apply IH]. Qed.
Lemma smono_ins v s l k : insert v (s_svc s) = (l, k) -> smono s (with_svc l s).
Proof. intros E j w H. destruct (insert_spec _ _ _ _ E) as [H1 H2]. cbn. rewrite H2. destruct (Nat.eqb j k); eauto. Qed.
Lemma smono_insert cfg v s : smono s (fst (insert_service cfg v s)).
Proof.
  unfold insert_service. destruct (g_routes cfg (v_name v)) as [|n0 ns].
  - destruct (lookup_name (v_name v) s); [apply smono_refl|]. destruct (insert v (s_svc s)) eqn:E. exact (smono_ins _ _ _ _ E).
  - destruct (lookup_name (v_name v) s); [apply smono_eq; reflexivity|]. destruct (first_known (n0 :: ns) s); [apply smono_eq; reflexivity|]. destruct (insert v (s_svc s)) eqn:E. exact (smono_ins _ _ _ _ E).
Qed.
Lemma smono_remove p s : smono s (fst (remove_process p s)).
Proof.
  unfold remove_process. cbn [fst]. eapply smono_trans; [|apply smono_fold; intros; unfold remove_seq_instance; eapply smono_trans; [apply smono_map|apply smono_eq; reflexivity]].
  apply smono_fold. intros. unfold remove_con_instance. eapply smono_trans; [apply smono_map|apply smono_eq; reflexivity].
Qed.
Lemma smono_add_seq cfg i n s : smono s (add_seq_service cfg i n s).
Proof.
  unfold add_seq_service. pose proof (smono_insert cfg (mk_v n (g_timeout cfg) (g_fatal cfg) [] [] 0) s) as H. destruct (insert_service cfg _ s) as [s1 vi]. cbn [fst] in H.
  eapply smono_trans; [exact H|]. eapply smono_trans; [apply (smono_eq s1 (with_seq (upd i (q_add vi) (s_seq s1)) s1)); reflexivity|]. exact (smono_upd (with_seq (upd i (q_add vi) (s_seq s1)) s1) vi (v_add_seq i)).
Qed.
Lemma smono_adv_seq cfg h alias add rem s : smono s (fst (adv_seq cfg h alias add rem s)).
Proof.
  unfold adv_seq. assert (H : smono s (fst (find_or_add_seq h s))).
  { apply smono_eq. unfold find_or_add_seq. destruct (find_seq _ _); [reflexivity|]. destruct (insert _ _). reflexivity. }
  destruct (find_or_add_seq h s) as [s0 i]. cbn [fst] in *. eapply smono_trans; [exact H|]. eapply smono_trans; [apply (smono_fold (fun s n => add_seq_service cfg i n s) (filter (g_allow cfg alias) add)); intros; apply smono_add_seq|].
  unfold remove_seq_services. apply smono_fold. intros s1 vi. destruct (get _ vi); [|apply smono_refl]. destruct (memz _ _); [|apply smono_refl].
  eapply smono_trans; [apply (smono_eq s1 (with_seq (upd i (q_remove vi) (s_seq s1)) s1)); reflexivity|]. exact (smono_upd (with_seq (upd i (q_remove vi) (s_seq s1)) s1) vi (v_del_seq i)).
Qed.
Lemma smono_adv_con cfg h alias order add rem s : smono s (adv_con cfg h alias order add rem s).
Proof.
  unfold adv_con. assert (H : smono s (fst (find_or_add_con h s))).
  { apply smono_eq. unfold find_or_add_con. destruct (find_con _ _); [reflexivity|]. destruct (insert _ _). reflexivity. }
  destruct (find_or_add_con h s) as [s0 i]. cbn [fst] in *. eapply smono_trans; [exact H|].
  eapply smono_trans; [apply (smono_eq s0 (with_con (upd i (fun c => mk_ci (ci_proc c) order) (s_con s0)) s0)); reflexivity|].
  eapply smono_trans.
  - apply (smono_fold (fun s x => add_con_service cfg i order x s) (filter (fun x => g_allow cfg alias (fst (fst x))) add)). intros s1 [[n hops] t]. unfold add_con_service. pose proof (smono_insert cfg (mk_v n (if 0 <? t then Some t else None) false [] [] 0) s1) as H1.
    destruct (insert_service cfg _ s1) as [s2 vi]. cbn [fst] in H1. eapply smono_trans; [exact H1|apply smono_upd].
  - unfold remove_con_services. apply smono_fold. intros s1 vi. destruct (get _ vi); [|apply smono_refl]. destruct (memz _ _); [|apply smono_refl]. apply smono_upd.
Qed.
Lemma smono_prepare_services i l s : smono s (fst (fst (prepare_services i l s))).
Proof.
  unfold prepare_services. generalize (@nil Z) true. revert s. induction l as [|vi l IH]; intros s ns ok; cbn [fold_left]; [apply smono_refl|].
  destruct (get (s_svc s) vi); [eapply smono_trans; [apply smono_upd|apply IH]|apply IH].
Qed.
Lemma smono_prepare_each hs : forall s s' ns is us ok, prepare_each hs s = (s', ns, is, us, ok) -> smono s s'.
Proof.
  induction hs as [|h hs IH]; intros s s' ns is us ok H; cbn [prepare_each] in H; [injection H as <- <- <- <- <-; apply smono_refl|].
  destruct (find_seq (h_ipc h) s) as [i|].
  - assert (Hp : smono s (fst (fst (match get (s_seq s) i with Some q => prepare_services i (q_serv q) s | None => (s, [], false) end)))).
    { destruct (get (s_seq s) i); [apply smono_prepare_services|apply smono_refl]. }
    destruct (match get (s_seq s) i with Some q => _ | None => _ end) as [[s1 ns1] ok1]. destruct (prepare_each hs s1) as [[[[s2 ns2] is2] us2] ok2] eqn:E. injection H as <- <- <- <- <-.
    eapply smono_trans; [exact Hp|]. eapply IH; eauto.
  - destruct (prepare_each hs s) as [[[[s2 ns2] is2] us2] ok2] eqn:E. injection H as <- <- <- <- <-. eapply IH; eauto.
Qed.

(* the calls of the instances stay; new instances have none *)
Record exact (s s' : state) : Prop := {
  x_fwd : forall i q, get (s_seq s) i = Some q -> exists q', get (s_seq s') i = Some q' /\ q_proc q' = q_proc q /\ q_call q' = q_call q /\ q_resv q' = q_resv q;
  x_bwd : forall i q', get (s_seq s') i = Some q' -> q_call q' = c_nil \/ exists q, get (s_seq s) i = Some q /\ q_call q' = q_call q /\ q_resv q' = q_resv q }.
Lemma exact_eq s s' : s_seq s' = s_seq s -> exact s s'.
Proof. intros E. split; rewrite E; intros i q H; [eauto 6|right; eauto]. Qed.
Lemma exact_trans a b c : exact a b -> exact b c -> exact a c.
Proof.
  intros [F1 B1] [F2 B2]. split.
  - intros i q H. destruct (F1 _ _ H) as (q1 & H1 & E1 & E2 & E3). destruct (F2 _ _ H1) as (q2 & H2 & E4 & E5 & E6). exists q2. rewrite E4, E5, E6. auto.
  - intros i q H. destruct (B2 _ _ H) as [H2|(q1 & H1 & E1 & E2)]; [auto|]. destruct (B1 _ _ H1) as [H2|(q2 & H2 & E3 & E4)]; [left; congruence|right; exists q2; rewrite E1, E2; auto].
Qed.
Lemma exact_upd s i f : (forall q, q_proc (f q) = q_proc q /\ q_call (f q) = q_call q /\ q_resv (f q) = q_resv q) -> exact s (with_seq (upd i f (s_seq s)) s).
Proof.
  intros Hf. split; cbn [with_seq s_seq]; intros j q; rewrite get_upd; destruct (Nat.eqb_spec j i) as [->|]; eauto 6.
  - intros ->. destruct (Hf q) as (A & B & C). eexists. split; [reflexivity|auto].
  - destruct (get (s_seq s) i) as [q0|]; [|discriminate]. intros [= <-]. destruct (Hf q0) as (A & B & C). right. exists q0. auto.
Qed.
Lemma exact_fold {A} (g : state -> A -> state) l : (forall s x, exact s (g s x)) -> forall s, exact s (fold_left g l s).
Proof. intros Hg. induction l as [|x l IH]; intros s; cbn [fold_left]; [apply exact_eq; reflexivity|]. eapply exact_trans; [apply Hg|apply IH]. Qed.
Lemma exact_find h s : exact s (fst (find_or_add_seq h s)).
Proof.
  unfold find_or_add_seq. destruct (find_seq _ _); [apply exact_eq; reflexivity|]. destruct (insert _ _) as [l k] eqn:E. destruct (insert_spec _ _ _ _ E) as [H1 H2]. cbn [fst].
  split; cbn [with_seq s_seq]; intros i q; rewrite H2; destruct (Nat.eqb_spec i k) as [->|].
  - congruence.
  - eauto 6.
  - intros [= <-]. left. reflexivity.
  - intros H. right. eauto.
Qed.
Lemma exact_adv_seq cfg h alias add rem s : exact s (fst (adv_seq cfg h alias add rem s)).
Proof.
  unfold adv_seq. pose proof (exact_find h s) as H. destruct (find_or_add_seq h s) as [s0 i]. cbn [fst] in *. eapply exact_trans; [exact H|].
  eapply exact_trans with (b := fold_left (fun s n => add_seq_service cfg i n s) (filter (g_allow cfg alias) add) s0).
  - apply exact_fold with (g := fun s n => add_seq_service cfg i n s). intros s1 n. unfold add_seq_service. pose proof (insert_service_seq cfg (mk_v n (g_timeout cfg) (g_fatal cfg) [] [] 0) s1) as E.
    destruct (insert_service cfg _ s1) as [s2 vi]. cbn [fst] in E. eapply exact_trans; [apply (exact_eq s1 s2); exact E|].
    eapply exact_trans; [apply (exact_upd s2 i (q_add vi)); cbn; auto|apply exact_eq; reflexivity].
  - unfold remove_seq_services. apply exact_fold. intros s1 vi. destruct (get _ vi); [|apply exact_eq; reflexivity]. destruct (memz _ _); [|apply exact_eq; reflexivity].
    eapply exact_trans; [apply (exact_upd s1 i (q_remove vi)); cbn; auto|apply exact_eq; reflexivity].
Qed.
Lemma adv_con_seq cfg h alias order add rem s : s_seq (adv_con cfg h alias order add rem s) = s_seq s.
Proof.
  unfold adv_con. assert (H : s_seq (fst (find_or_add_con h s)) = s_seq s).
  { unfold find_or_add_con. destruct (find_con _ _); [reflexivity|]. destruct (insert _ _). reflexivity. }
  destruct (find_or_add_con h s) as [s0 i]. cbn [fst] in *. rewrite <- H. clear H.
  assert (G : forall l s, s_seq (fold_left (fun s x => add_con_service cfg i order x s) l s) = s_seq s).
  { intros l. induction l as [|[[n hops] t] l IH]; intros s1; cbn [fold_left]; [reflexivity|]. rewrite IH. unfold add_con_service.
    pose proof (insert_service_seq cfg (mk_v n (if 0 <? t then Some t else None) false [] [] 0) s1) as E. destruct (insert_service cfg _ s1) as [s2 vi]. exact E. }
  assert (G2 : forall l s, s_seq (fold_left (fun s v => match get (s_svc s) v with Some x => if memz (v_name x) rem then with_svc (upd v (v_del_conc i) (s_svc s)) s else s | None => s end) l s) = s_seq s).
  { intros l. induction l as [|v l IH]; intros s1; cbn [fold_left]; [reflexivity|]. rewrite IH. destruct (get _ v); [|reflexivity]. destruct (memz _ _); reflexivity. }
  unfold remove_con_services. rewrite G2, G. reflexivity.
Qed.

Section Call.
Variable r : request.
Hypothesis Hc0 : r_corr r <> 0.
Hypothesis Hv : h_valid (r_proc r) = true.
Hypothesis Hrep : no_reply r = false.
Definition mine (x : request) : bool := r_corr x =? r_corr r.
Definition has (q : seqi) : Prop := c_corr (q_call q) = r_corr r.
Definition nobody_has (s : state) : Prop := forall i q, get (s_seq s) i = Some q -> ~ has q.

Record call (D : list entry) (n : nat) (R : list (handle * Z)) (rep : Prop) (s : state) : Prop := {
  y_budget : (n + waits mine (s_pend s) <= 1)%nat;
  y_free : (1 <= n + waits mine (s_pend s))%nat -> nobody_has s;
  y_uniq : forall i j q p, get (s_seq s) i = Some q -> get (s_seq s) j = Some p -> has q -> has p -> i = j;
  y_call : forall i q, get (s_seq s) i = Some q -> has q -> q_call q = caller_in r /\ idle q = false;
  y_tgt : forall i q x, get (s_seq s) i = Some q -> has q -> dead_find (r_corr r) D = Some x -> d_target x = Some i /\ exists vi v, d_serv x = Some vi /\ get (s_svc s) vi = Some v;
  y_trk : forall h, In (h, r_corr r) R -> (exists i q, get (s_seq s) i = Some q /\ q_proc q = h /\ has q) \/ rep;
  y_pend : forall p, In p (s_pend s) -> mine (fst p) = true -> fst p = r }.

Lemma nil_not : c_corr c_nil <> r_corr r. Proof. cbn. congruence. Qed.

(* instances with the call may only disappear *)
Definition sub (s s' : state) : Prop := forall i q', get (s_seq s') i = Some q' -> has q' -> exists q, get (s_seq s) i = Some q /\ q_call q' = q_call q /\ idle q' = idle q.
Lemma exact_sub s s' : exact s s' -> sub s s'.
Proof.
  intros [_ B] i q' H Hh. destruct (B _ _ H) as [E|(q & Hq & E1 & E2)]; [exfalso; unfold has in Hh; rewrite E in Hh; exact (nil_not Hh)|].
  exists q. unfold idle. rewrite E2. auto.
Qed.
Lemma call_sub D D' n n' R R' (rep rep' : Prop) s s' : sub s s' -> smono s s' -> (dead_find (r_corr r) D' = dead_find (r_corr r) D \/ nobody_has s') ->
  (n' + waits mine (s_pend s') <= n + waits mine (s_pend s))%nat -> (forall p, In p (s_pend s') -> mine (fst p) = true -> fst p = r) ->
  (forall h, In (h, r_corr r) R' -> rep' \/ In (h, r_corr r) R /\ forall i q, get (s_seq s) i = Some q -> q_proc q = h -> has q -> exists q', get (s_seq s') i = Some q' /\ q_proc q' = h /\ has q') ->
  (rep -> rep') -> call D n R rep s -> call D' n' R' rep' s'.
Proof.
  intros Hs Hm Hd Hn Hp Hr Hrr [A B C E F G I]. split.
  - lia.
  - intros H1 i q' Hq' Hh. destruct (Hs _ _ Hq' Hh) as (q & Hq & E1 & _). apply (B ltac:(lia) i q Hq). unfold has in *. congruence.
  - intros i j q p Hq Hp' Hhq Hhp. destruct (Hs _ _ Hq Hhq) as (q0 & Hq0 & E1 & _). destruct (Hs _ _ Hp' Hhp) as (p0 & Hp0 & E2 & _). apply (C i j q0 p0); auto; unfold has in *; congruence.
  - intros i q Hq Hh. destruct (Hs _ _ Hq Hh) as (q0 & Hq0 & E1 & E2). destruct (E i q0 Hq0) as [E3 E4]; [unfold has in *; congruence|]. split; congruence.
  - intros i q x Hq Hh Hx. destruct (Hs _ _ Hq Hh) as (q0 & Hq0 & E1 & E2). destruct Hd as [Hd|Hd]; [|destruct (Hd _ _ Hq Hh)]. rewrite Hd in Hx.
    destruct (F i q0 x Hq0) as (F1 & vi & v & F2 & F3); [unfold has in *; congruence|exact Hx|]. split; [exact F1|]. destruct (Hm _ _ F3) as (v' & F4). eauto.
  - intros h Hin. destruct (Hr h Hin) as [H1|[H1 H2]]; [auto|]. destruct (G h H1) as [(i & q & Hq & Ep & Hh)|H3]; [|auto]. left. destruct (H2 i q Hq Ep Hh) as (q' & X). exists i, q'. exact X.
  - exact Hp.
Qed.

Definition calls (n : nat) (R : list (handle * Z)) (rep : Prop) (x : state * list out) : Prop :=
  call (s_dead (fst x)) n (reserves R (snd x)) (rep \/ In (O_error (caller_in r) true) (snd x)) (fst x).
Definition st (n : nat) (R : list (handle * Z)) (rep : Prop) (s : state) : Prop := call (s_dead s) n R rep s.
Lemma call_weak D n n' R (rep rep' : Prop) s : (n' <= n)%nat -> (rep -> rep') -> call D n R rep s -> call D n' R rep' s.
Proof.
  intros Hn Hrr H. eapply (call_sub D D n n' R R rep rep' s s); try exact H; auto; [intros i q; eauto|apply smono_refl|lia|exact (y_pend _ _ _ _ _ H)|].
  intros h Hin. right. split; [exact Hin|]. eauto.
Qed.
Lemma calls_then n n' R rep x f : calls n R rep x -> calls n' (reserves R (snd x)) (rep \/ In (O_error (caller_in r) true) (snd x)) (f (fst x)) -> calls n' R rep (then_ x f).
Proof.
  intros _ H. unfold calls in *. rewrite then_fst, then_snd, reserves_app. eapply call_weak; [apply le_n| |exact H]. rewrite in_app_iff. tauto.
Qed.
Lemma calls_silent n R rep s o : st n R rep s -> forallb silent o = true -> calls n R rep (s, o).
Proof.
  intros H Ho. unfold calls. cbn [fst snd]. rewrite (proj1 (reserves_silent o R Ho)). eapply call_weak; [apply le_n| |exact H]. tauto.
Qed.

(* what leaves instances, deadlines and pending lookups as they are *)
Lemma st_exact n R rep s s' : exact s s' -> smono s s' -> s_dead s' = s_dead s -> s_pend s' = s_pend s -> st n R rep s -> st n R rep s'.
Proof.
  intros Hx Hm Hd Hp H. unfold st in *. rewrite Hd. eapply call_sub; try exact H; auto.
  - apply exact_sub. exact Hx.
  - rewrite Hp. lia.
  - rewrite Hp. exact (y_pend _ _ _ _ _ H).
  - intros h Hin. right. split; [exact Hin|]. intros i q Hq Ep Hh. destruct (x_fwd _ _ Hx _ _ Hq) as (q' & Hq' & E1 & E2 & _). exists q'. split; [exact Hq'|]. unfold has in *. split; congruence.
Qed.
Lemma st_sub n R R' rep s : (forall h, In (h, r_corr r) R' -> In (h, r_corr r) R) -> st n R rep s -> st n R' rep s.
Proof.
  intros HR H. unfold st in *. eapply call_sub; try exact H; auto; [intros i q; eauto|apply smono_refl|exact (y_pend _ _ _ _ _ H)|]. intros h Hin. right. split; [auto|]. eauto.
Qed.
(* lookups taken out of the queue *)
Lemma st_pend n n' R rep s l : st n R rep s -> (n' + waits mine l <= n + waits mine (s_pend s))%nat -> (forall p, In p l -> In p (s_pend s)) -> st n' R rep (with_pend l s).
Proof.
  intros H Hn Hl. unfold st in *. eapply call_sub; try exact H; auto; [intros i q; eauto|apply smono_eq; reflexivity|intros p Hp; apply (y_pend _ _ _ _ _ H); auto|]. intros h Hin. right. split; [auto|]. eauto.
Qed.

Lemma calls_lost n R rep ipc s : inv s -> st n R rep s -> calls n R rep (lost ipc s).
Proof.
  intros Hi H. unfold calls, lost, reserves. cbn [fst snd map fold_left]. unfold reserve1. cbn [releases].
  assert (Hd : s_dead (undeliverable ipc s) = s_dead s /\ s_pend (undeliverable ipc s) = s_pend s /\ s_svc (undeliverable ipc s) = s_svc s) by (unfold undeliverable; destruct (find_seq ipc s); auto).
  destruct Hd as (Hd & Hp & Hsv). rewrite Hd. eapply call_sub; try exact H; auto.
  - intros i q' Hq' Hh. unfold undeliverable in Hq'. destruct (find_seq ipc s) as [k|]; [|eauto]. cbn [with_seq s_seq] in Hq'. rewrite get_upd in Hq'. destruct (Nat.eqb_spec i k) as [->|]; [|eauto].
    destruct (get (s_seq s) k) as [q0|]; [|discriminate]. injection Hq' as <-. exfalso. exact (nil_not Hh).
  - apply smono_eq. exact Hsv.
  - rewrite Hp. lia.
  - rewrite Hp. exact (y_pend _ _ _ _ _ H).
  - intros h Hin. apply filter_In in Hin. destruct Hin as [Hin Hn]. cbn [fst] in Hn. apply negb_true_iff, Z.eqb_neq in Hn. right. split; [exact Hin|]. intros i q Hq Ep Hh. exists q. split; [|auto].
    unfold undeliverable. destruct (find_seq ipc s) as [k|] eqn:E; [|exact Hq]. destruct (find_seq_some _ _ _ E) as (q0 & Hq0 & E0).
    cbn. rewrite get_upd. destruct (Nat.eqb_spec i k) as [->|]; [|exact Hq]. congruence.
Qed.
Lemma calls_send n R rep e x d dl s : inv s -> (match d with D_seq h => st n (R ++ [(h, r_corr x)]) rep s | _ => st n R rep s end) -> calls n R rep (send_reply e x d dl s).
Proof.
  intros Hi H. unfold send_reply.
  assert (H1 : st n (reserves R [O_idle x d dl]) rep s).
  { unfold reserves. cbn [map fold_left]. unfold reserve1. cbn [releases negb]. rewrite filter_true. destruct d; exact H. }
  eapply (calls_then n); cbn [fst snd].
  - unfold calls. cbn [fst snd]. eapply call_weak; [apply le_n| |exact H1]. tauto.
  - assert (H2 : st n (reserves R [O_idle x d dl]) (rep \/ In (O_error (caller_in r) true) [O_idle x d dl]) s) by (eapply call_weak; [apply le_n| |exact H1]; tauto).
    destruct (e_gone e _); [apply calls_lost; assumption|apply calls_silent; [exact H2|reflexivity]].
Qed.

Lemma find_insert_other c x l : d_corr x <> c -> dead_find c (dead_insert x l) = dead_find c l.
Proof.
  intros H. unfold dead_find. induction l as [|y l IH]; cbn [dead_insert find]; [destruct (Z.eqb_spec (d_corr x) c); [contradiction|reflexivity]|].
  destruct (_ <? _); cbn [find]; [destruct (Z.eqb_spec (d_corr x) c); [contradiction|reflexivity]|]. destruct (_ =? _); [reflexivity|exact IH].
Qed.
Lemma find_insert_new x l : dead_find (d_corr x) l = None -> dead_find (d_corr x) (dead_insert x l) = Some x.
Proof.
  unfold dead_find. induction l as [|y l IH]; cbn [dead_insert find]; [rewrite Z.eqb_refl; reflexivity|]. intros H. destruct (_ <? _); cbn [find]; [rewrite Z.eqb_refl; reflexivity|].
  destruct (_ =? _); [discriminate|auto].
Qed.
Lemma find_update_other c c' i vi l : c' <> c -> dead_find c (dead_update c' i vi l) = dead_find c l.
Proof.
  intros H. unfold dead_find. induction l as [|y l IH]; cbn [dead_update find]; [reflexivity|]. destruct (Z.eqb_spec (d_corr y) c') as [E|]; cbn [find d_corr].
  - destruct (Z.eqb_spec c' c); [contradiction|]. destruct (Z.eqb_spec (d_corr y) c); [congruence|reflexivity].
  - destruct (_ =? _); [reflexivity|exact IH].
Qed.
Lemma find_update c i vi l x : dead_find c l = Some x -> dead_find c (dead_update c i vi l) = Some (mk_d (d_when x) c (Some i) (Some vi)).
Proof.
  unfold dead_find. induction l as [|y l IH]; cbn [dead_update find]; [discriminate|]. destruct (Z.eqb_spec (d_corr y) c) as [E|N]; cbn [find d_corr].
  - intros [= <-]. rewrite Z.eqb_refl. reflexivity.
  - intros H. destruct (Z.eqb_spec (d_corr y) c); [contradiction|auto].
Qed.

Lemma one_mine x : mine x = true -> one mine x = 1%nat. Proof. unfold one. intros ->. reflexivity. Qed.
Lemma one_other x : mine x = false -> one mine x = 0%nat. Proof. unfold one. intros ->. reflexivity. Qed.

Lemma calls_lookup cfg e x n R rep s : inv s -> (mine x = true -> x = r) -> st (n + one mine x) R rep s -> calls n R rep (lookup cfg e x s).
Proof.
  intros Hi Hx H. pose proof (lookup_looked cfg e x s Hi) as Lk. destruct (lookup cfg e x s) as [s' o]. cbn [fst snd] in Lk.
  assert (Hw : st n R rep s) by (eapply call_weak; [|intros X; exact X|exact H]; lia).
  assert (Hq : forall D, (dead_find (r_corr r) D = dead_find (r_corr r) (s_dead s) \/ mine x = true) -> st n R rep (queue e x (with_dead D s))).
  { intros D HD. unfold st in *. eapply call_sub; try exact H; auto; cbn [queue with_pend with_dead s_dead s_pend s_seq s_svc].
    - intros i q. eauto.
    - apply smono_eq. reflexivity.
    - destruct HD as [HD|HD]; [left; exact HD|right]. intros i q. apply (y_free _ _ _ _ _ H). rewrite (one_mine x HD). lia.
    - rewrite waits_app, waits_cons. cbn [fst]. change (waits mine []) with 0%nat. lia.
    - intros p Hp Hm. apply in_app_or in Hp. destruct Hp as [Hp | [<- | []]]; [apply (y_pend _ _ _ _ _ H); assumption|cbn in *; auto].
    - intros h Hin. right. split; [exact Hin|]. eauto. }
  destruct Lk as [U|o B Ho|d vi v B Hn Hsv Hhs Hcd Hsem|Hsem B|vi v i c s1 Hn Hsv Hhs Hne Hcon Hnx Es1|vi v i q d dl tm s1 Hn Hsv Hin Hg Hidle Hdl Es1].
  - apply calls_silent; [exact Hw|reflexivity].
  - apply calls_silent; [|destruct Ho as [-> | (m & ->)]; reflexivity].
    assert (Hs : queue e x s = queue e x (with_dead (s_dead s) s)) by (destruct s; reflexivity). rewrite Hs. apply Hq. left. reflexivity.
  - apply calls_silent; [|reflexivity]. apply Hq. destruct (mine x) eqn:Em; [auto|left]. apply find_insert_other. cbn [d_corr]. unfold mine in Em. apply Z.eqb_neq in Em. exact Em.
  - apply calls_silent; [exact Hw|reflexivity].
  - rewrite <- surjective_pairing.
    assert (same_dir s s1 /\ s_seq s1 = s_seq s /\ s_svc s1 = s_svc s /\ s_dead s1 = s_dead s /\ s_pend s1 = s_pend s) as (Hs & Hq1 & Hs1 & Hd1 & Hp1).
    { subst s1. destruct (r_gtrid x =? 0); [repeat split; reflexivity|]. destruct (assoc_of _ _); [destruct (mem _ _)|]; (split; [try apply same_refl; apply same_assoc|repeat split; reflexivity]). }
    apply calls_send; [eapply inv_same; eauto|]. eapply st_exact; [| | | |exact Hw]; auto; [apply exact_eq; exact Hq1|apply smono_eq; exact Hs1].
  - rewrite <- surjective_pairing.
    assert (Hs : same_dir s s1).
    { subst s1. eapply same_trans; [|apply same_timer]. eapply same_trans; [|apply same_dead]. apply same_upd. reflexivity. }
    apply calls_send; [eapply inv_same; eauto|].
    assert (Hg1 : forall j p, get (s_seq s1) j = Some p -> (j = i /\ p = q_reserve vi (caller_in x) q) \/ (j <> i /\ get (s_seq s) j = Some p)).
    { intros j p. subst s1. cbn [with_timer with_dead with_seq s_seq]. rewrite get_upd. destruct (Nat.eqb_spec j i) as [->|]; [rewrite Hg; intros [= <-]; auto|auto]. }
    assert (Hg2 : forall j p, j <> i -> get (s_seq s) j = Some p -> get (s_seq s1) j = Some p).
    { intros j p Hj Hp. subst s1. cbn [with_timer with_dead with_seq s_seq]. rewrite get_upd. destruct (Nat.eqb_spec j i) as [->|]; [contradiction|exact Hp]. }
    assert (Hi1 : get (s_seq s1) i = Some (q_reserve vi (caller_in x) q)) by (subst s1; cbn [with_timer with_dead with_seq s_seq]; rewrite get_upd, Nat.eqb_refl, Hg; reflexivity).
    assert (Hqn : ~ has q) by (intros Hh; destruct (y_call _ _ _ _ _ H i q Hg Hh) as [_ X]; congruence).
    assert (Hpd : s_pend s1 = s_pend s) by (subst s1; reflexivity). assert (Hsvc : s_svc s1 = s_svc s) by (subst s1; reflexivity). assert (Hdd : s_dead s1 = dl) by (subst s1; reflexivity).
    clear Es1. destruct (mine x) eqn:Em.
    + specialize (Hx eq_refl). subst x. rewrite (one_mine r Em) in H. pose proof (y_free _ _ _ _ _ H ltac:(lia)) as Hno. pose proof (y_budget _ _ _ _ _ H) as Hbud.
      unfold st. rewrite Hdd. split; try rewrite Hpd.
      * lia.
      * lia.
      * intros j k p p' Hp Hp' Hh Hh'. destruct (Hg1 _ _ Hp) as [[-> _]|[_ Ho]]; [|destruct (Hno _ _ Ho Hh)]. destruct (Hg1 _ _ Hp') as [[-> _]|[_ Ho]]; [reflexivity|destruct (Hno _ _ Ho Hh')].
      * intros j p Hp Hh. destruct (Hg1 _ _ Hp) as [[-> ->]|[_ Ho]]; [split; reflexivity|destruct (Hno _ _ Ho Hh)].
      * intros j p y Hp Hh Hy. destruct (Hg1 _ _ Hp) as [[-> _]|[_ Ho]]; [|destruct (Hno _ _ Ho Hh)]. rewrite Hsvc.
        destruct Hdl as [y0 Hy0|dn Hy0 Hc y0|Hy0 Hc].
        -- rewrite (find_update _ _ _ _ _ Hy0) in Hy. injection Hy as <-. cbn. split; [reflexivity|]. eauto.
        -- change (r_corr r) with (d_corr y0) in Hy. rewrite (find_insert_new y0) in Hy by exact Hy0. injection Hy as <-. cbn. split; [reflexivity|]. eauto.
        -- congruence.
      * intros h Hin'. apply in_app_or in Hin'. destruct Hin' as [Hin' | [[= <-] | []]].
        -- destruct (y_trk _ _ _ _ _ H h Hin') as [(j & p & Hp & _ & Hh)|Hr]; [destruct (Hno _ _ Hp Hh)|auto].
        -- left. exists i. eexists. split; [exact Hi1|]. split; reflexivity.
      * exact (y_pend _ _ _ _ _ H).
    + assert (Hne : r_corr x <> r_corr r) by (apply Z.eqb_neq; exact Em). rewrite (one_other x Em), Nat.add_0_r in H. unfold st in *. rewrite Hdd. eapply call_sub; try exact H; auto.
      * intros j p Hp Hh. destruct (Hg1 _ _ Hp) as [[-> ->]|[_ Ho]]; [exfalso; exact (Hne Hh)|eauto].
      * apply smono_eq. exact Hsvc.
      * left. destruct Hdl as [y0 Hy0|dn Hy0 Hc y0|Hy0 Hc]; [apply find_update_other; exact Hne|apply find_insert_other; exact Hne|reflexivity].
      * rewrite Hpd. lia.
      * rewrite Hpd. exact (y_pend _ _ _ _ _ H).
      * intros h Hin'. right. apply in_app_or in Hin'. destruct Hin' as [Hin' | [[= _ E] | []]]; [|congruence]. split; [exact Hin'|]. intros j p Hp Ep Hh. exists p.
        split; [|auto]. apply Hg2; [|exact Hp]. intros ->. assert (p = q) by congruence. subst. contradiction.
Qed.
Lemma calls_again cfg e l : forall n R rep s, inv s -> (forall p, In p l -> mine (fst p) = true -> fst p = r) -> st (n + waits mine l) R rep s -> calls n R rep (lookup_again cfg e l s).
Proof.
  unfold lookup_again. induction l as [|p l IH]; intros n R rep s Hi Hl H; cbn [each].
  - apply calls_silent; [eapply call_weak; [|intros X; exact X|exact H]; lia|reflexivity].
  - assert (H1 : calls (n + waits mine l) R rep (lookup cfg e (fst p) s)).
    { apply calls_lookup; [exact Hi|apply Hl; left; reflexivity|]. rewrite waits_cons in H. eapply call_weak; [|intros X; exact X|exact H]. lia. }
    eapply calls_then; [exact H1|]. apply IH; [apply good_lookup; exact Hi|intros; apply Hl; [right|]; assumption|exact H1].
Qed.
Lemma calls_serve cfg e i n R rep s : inv s -> (exists q, get (s_seq s) i = Some q) -> st n R rep s -> calls n R rep (serve_first cfg e i s).
Proof.
  intros Hi (q & Hq) H. unfold serve_first. rewrite Hq. destruct (extract_first _ _) as [[p rest]|] eqn:E; [|apply calls_silent; [exact H|reflexivity]].
  destruct (extract_first_some _ _ _ _ E) as (a & b & Ea & Er & _). apply calls_lookup; [apply inv_pend; exact Hi| |].
  - intros Hm. apply (y_pend _ _ _ _ _ H); [rewrite Ea; apply in_or_app; right; left; reflexivity|exact Hm].
  - eapply st_pend; [exact H| |]; [rewrite (extract_waits mine _ _ _ _ E); lia|]. intros y Hy. rewrite Ea. subst rest. apply in_app_or in Hy. apply in_or_app. destruct Hy; [auto|right; right; assumption].
Qed.

Lemma partition_sub {A} (f : A -> bool) l : forall a b, partition f l = (a, b) -> forall x, (In x a \/ In x b) -> In x l.
Proof. intros a b H x Hx. apply (elements_in_partition f l H). exact Hx. Qed.

Lemma releases_sub R x h : In (h, r_corr r) (filter (fun y => negb (releases x y)) R) -> In (h, r_corr r) R.
Proof. intros H. apply filter_In in H. tauto. Qed.

Lemma st_remove n R rep s p x : inv s -> (forall y, releases x y = p (fst y)) -> st n R rep s -> st n (filter (fun y => negb (releases x y)) R) rep (fst (remove_process p s)).
Proof.
  intros Hi Hp H. assert (Hd : s_dead (fst (remove_process p s)) = s_dead s) by exact (f_equal fst (remove_process_dt p s)). unfold st in *. rewrite Hd. eapply call_sub; try exact H; auto.
  - intros i q' Hq' Hh. rewrite remove_process_seq in Hq'. destruct (get (s_seq s) i) as [q|]; [|discriminate]. destruct (p _); [discriminate|]. injection Hq' as <-. eauto.
  - apply smono_remove.
  - rewrite remove_process_pend. lia.
  - rewrite remove_process_pend. exact (y_pend _ _ _ _ _ H).
  - intros h Hin. apply filter_In in Hin. destruct Hin as [Hin Hn]. rewrite Hp in Hn. cbn [fst] in Hn. apply negb_true_iff in Hn. right. split; [exact Hin|].
    intros i q Hq Ep Hh. exists q. rewrite remove_process_seq, Hq, Ep, Hn. auto.
Qed.

(* an expired entry *)
Definition notin (l : list entry) : Prop := forall x, In x l -> d_corr x <> r_corr r.
Lemma expire_one_call x D n R (rep : Prop) s : call (x :: D) n R rep s -> call D n R (rep \/ In (O_error (caller_in r) true) (snd (expire_one x s))) (fst (expire_one x s)) /\
  (d_corr x = r_corr r -> nobody_has (fst (expire_one x s))).
Proof.
  intros H. set (rep' := rep \/ _). assert (Hrr : rep -> rep') by (subst rep'; tauto).
  assert (Hcase : forall s', sub s s' -> (forall i q, get (s_seq s) i = Some q -> has q -> exists q', get (s_seq s') i = Some q' /\ q_proc q' = q_proc q /\ has q') -> smono s s' ->
     (waits mine (s_pend s') <= waits mine (s_pend s))%nat -> (forall p, In p (s_pend s') -> In p (s_pend s)) -> (d_corr x = r_corr r -> nobody_has s') ->
     call D n R rep' s' /\ (d_corr x = r_corr r -> nobody_has s')).
  { intros s' Hs Hk Hm Hw Hp Hn. split; [|exact Hn]. eapply call_sub; try exact H; auto; [|lia|intros p Hin; apply (y_pend _ _ _ _ _ H); auto|].
    - destruct (Z.eq_dec (d_corr x) (r_corr r)) as [E|N]; [right; auto|left]. unfold dead_find. cbn [find]. destruct (Z.eqb_spec (d_corr x) (r_corr r)); [contradiction|reflexivity].
    - intros h Hin. right. split; [exact Hin|]. intros i q Hq <- Hh. exact (Hk i q Hq Hh). }
  assert (Hself : (d_corr x = r_corr r -> nobody_has s) -> call D n R rep' s /\ (d_corr x = r_corr r -> nobody_has s)).
  { intros Hn. apply (Hcase s); auto; [intros i q; eauto|eauto|apply smono_refl]. }
  unfold expire_one in *. destruct (extract_first _ _) as [[p rest]|] eqn:E.
  - cbn [fst]. destruct (extract_first_some _ _ _ _ E) as (a & b & Ea & Er & Hp & _). cbn [fst] in Hp. apply Z.eqb_eq in Hp.
    apply Hcase; cbn [with_pend s_seq s_pend].
    + intros i q. eauto.
    + eauto.
    + apply smono_eq. reflexivity.
    + rewrite (extract_waits mine _ _ _ _ E). lia.
    + intros y Hy. rewrite Ea. subst rest. apply in_app_or in Hy. apply in_or_app. destruct Hy; [auto|right; right; assumption].
    + intros Ex i q. apply (y_free _ _ _ _ _ H). rewrite (extract_waits mine _ _ _ _ E), (one_mine (fst p)); [lia|]. unfold mine. apply Z.eqb_eq. congruence.
  - assert (Hnone : d_corr x = r_corr r -> (forall i, d_target x = Some i -> forall q, get (s_seq s) i = Some q -> ~ has q) \/ (forall i q, get (s_seq s) i = Some q -> has q -> False) ->  nobody_has s).
    { intros Ex HH i q Hq Hh. destruct (y_tgt _ _ _ _ _ H i q x Hq Hh) as [Ht _]; [unfold dead_find; cbn [find]; rewrite Ex, Z.eqb_refl; reflexivity|]. destruct HH as [HH|HH]; [eapply HH; eauto|eapply HH; eauto]. }
    assert (Hsv : d_corr x = r_corr r -> forall i q, get (s_seq s) i = Some q -> has q -> d_target x = Some i /\ exists vi v, d_serv x = Some vi /\ get (s_svc s) vi = Some v).
    { intros Ex i q Hq Hh. apply (y_tgt _ _ _ _ _ H i q x Hq Hh). unfold dead_find. cbn [find]. rewrite Ex, Z.eqb_refl. reflexivity. }
    destruct (d_serv x) as [vi|] eqn:Esv; [|apply Hself; intros Ex i q Hq Hh; destruct (Hsv Ex i q Hq Hh) as (_ & vi & v & A & _); discriminate].
    destruct (d_target x) as [i|] eqn:Et; [|apply Hself; intros Ex i q Hq Hh; destruct (Hsv Ex i q Hq Hh) as (A & _); discriminate].
    destruct (get (s_svc s) vi) as [v|] eqn:Eg; [|apply Hself; intros Ex j q Hq Hh; destruct (Hsv Ex j q Hq Hh) as (_ & k & w & A & B); congruence].
    destruct (get (s_seq s) i) as [q|] eqn:Eq; [|apply Hself; intros Ex j q Hq Hh; destruct (Hsv Ex j q Hq Hh) as (A & _); congruence].
    destruct (Z.eqb_spec (c_corr (q_call q)) (d_corr x)) as [Ec|Nc]; [|apply Hself; intros Ex j p Hp Hh; destruct (Hsv Ex j p Hp Hh) as (A & _); injection A as <-; assert (p = q) by congruence; subst p; unfold has in Hh; congruence].
    cbv zeta in *.
    assert (Hst : forall s', s_seq s' = upd i q_consume (s_seq s) -> s_svc s' = s_svc s -> s_pend s' = s_pend s -> (has q -> rep') -> call D n R rep' s' /\ (d_corr x = r_corr r -> nobody_has s')).
    { intros s' Es Hsvc Hp Hr.
      assert (G : forall j p, get (s_seq s') j = Some p -> has p -> j <> i /\ get (s_seq s) j = Some p).
      { intros j p Hp' Hh. rewrite Es, get_upd in Hp'. destruct (Nat.eqb_spec j i) as [->|]; [|auto]. rewrite Eq in Hp'. injection Hp' as <-. exfalso. exact (nil_not Hh). }
      assert (Hno : d_corr x = r_corr r -> nobody_has s').
      { intros Ex j p Hp' Hh. destruct (G j p Hp' Hh) as [Hj Hp2]. destruct (Hsv Ex j p Hp2 Hh) as (A & _). congruence. }
      split; [|exact Hno]. eapply call_sub; try exact H; auto.
      - intros j p Hp' Hh. destruct (G j p Hp' Hh) as [_ Hp2]. eauto.
      - apply smono_eq. exact Hsvc.
      - destruct (Z.eq_dec (d_corr x) (r_corr r)) as [E1|N]; [right; auto|left]. unfold dead_find. cbn [find]. destruct (Z.eqb_spec (d_corr x) (r_corr r)); [contradiction|reflexivity].
      - rewrite Hp. lia.
      - rewrite Hp. exact (y_pend _ _ _ _ _ H).
      - intros h Hin. destruct (Z.eq_dec (d_corr x) (r_corr r)) as [E1|N].
        + left. apply Hr. unfold has. congruence.
        + right. split; [exact Hin|]. intros j p Hp' Ep Hh. exists p. split; [|auto]. rewrite Es, get_upd. destruct (Nat.eqb_spec j i) as [->|]; [|exact Hp']. assert (p = q) by congruence. subst p. unfold has in Hh. congruence. }
    destruct (h_valid (c_proc (q_call q))) eqn:Ev.
    + cbn [fst snd] in *. apply Hst; try (destruct (v_fatal v); reflexivity). intros Hh. subst rep'. right. left. destruct (y_call _ _ _ _ _ H i q Eq Hh) as [Ecl _]. rewrite Ecl. reflexivity.
    + cbn [fst snd] in *. apply Hst; try reflexivity. intros Hh. exfalso. destruct (y_call _ _ _ _ _ H i q Eq Hh) as [Ecl _]. rewrite Ecl in Ev. unfold caller_in in Ev. rewrite Hrep in Ev. cbn in Ev. congruence.
Qed.
Lemma expire_one_nobody x s : nobody_has s -> nobody_has (fst (expire_one x s)).
Proof.
  intros H. unfold expire_one. destruct (extract_first _ _) as [[p rest]|]; [exact H|]. destruct (d_serv x); [|exact H]. destruct (d_target x) as [i|]; [|exact H]. destruct (get _ _) as [v|]; [|exact H].
  destruct (get (s_seq s) i) as [q|] eqn:Eq; [|exact H]. destruct (_ =? _); [|exact H]. cbv zeta.
  assert (G : forall s', s_seq s' = upd i q_consume (s_seq s) -> nobody_has s').
  { intros s' Es j p Hp Hh. rewrite Es, get_upd in Hp. destruct (Nat.eqb_spec j i) as [->|]; [|exact (H j p Hp Hh)]. rewrite Eq in Hp. injection Hp as <-. exact (nil_not Hh). }
  destruct (h_valid (c_proc (q_call q))); cbn [fst]; apply G; [destruct (v_fatal v)|]; reflexivity.
Qed.
Lemma each_expire_call l : forall D n R (rep : Prop) s, call (l ++ D) n R rep s -> call D n R (rep \/ In (O_error (caller_in r) true) (snd (each expire_one l s))) (fst (each expire_one l s)) /\
  ((exists x, In x l /\ d_corr x = r_corr r) -> nobody_has (fst (each expire_one l s))).
Proof.
  induction l as [|x l IH]; intros D n R rep s H; cbn [each].
  - cbn [fst snd]. split; [eapply call_weak; [apply le_n| |exact H]; tauto|]. intros (x & [] & _).
  - rewrite then_fst, then_snd. cbn [app] in H. destruct (expire_one_call x (l ++ D) n R rep s H) as [H1 H2]. destruct (IH D n R _ _ H1) as [H3 H4]. split.
    + eapply call_weak; [apply le_n| |exact H3]. rewrite in_app_iff. tauto.
    + intros (y & [->|Hy] & Ey); [|apply H4; eauto]. specialize (H2 Ey). clear - H2 Hc0. revert H2. generalize (fst (expire_one y s)). induction l as [|z l IHl]; intros s0 Hn; cbn [each]; [exact Hn|].
      rewrite then_fst. apply IHl. apply expire_one_nobody. exact Hn.
Qed.
Lemma calls_timeout e n R (rep : Prop) s : st n R rep s -> calls n R rep (timeout e s) /\
  ((exists x, In x (dead_expired (e_now e) (s_dead s)) /\ d_corr x = r_corr r) -> nobody_has (fst (timeout e s))).
Proof.
  intros H. unfold timeout. set (ex := dead_expired (e_now e) (s_dead s)). set (rest := dead_rest (e_now e) (s_dead s)).
  assert (H0 : call (ex ++ rest) n R rep (with_dead rest s)).
  { unfold st in H. rewrite (dead_split (e_now e) (s_dead s)) in H. fold ex rest in H. destruct H. split; auto. }
  destruct (each_expire_call ex rest n R rep _ H0) as [H1 H2]. destruct (each_expire_dt ex (with_dead rest s)) as [H3 H4]. injection H3 as Hd _.
  destruct (each_expire_keeps ex (with_dead rest s)) as [_ Hsil]. cbn [with_dead s_dead] in Hd.
  set (s1 := fst (each expire_one ex (with_dead rest s))) in *.
  assert (Hs : exists tm, fst (then_ (each expire_one ex (with_dead rest s)) (fun s => match rest with [] => (s, []) | x :: _ => (with_timer (T_at (d_when x)) s, []) end)) = with_timer tm s1).
  { rewrite then_fst. fold s1. destruct rest as [|x l]; cbn [fst]; [exists (s_timer s1); destruct s1; reflexivity|eauto]. }
  assert (Ho : snd (then_ (each expire_one ex (with_dead rest s)) (fun s => match rest with [] => (s, []) | x :: _ => (with_timer (T_at (d_when x)) s, []) end)) = snd (each expire_one ex (with_dead rest s))).
  { rewrite then_snd. destruct rest; apply app_nil_r. }
  destruct Hs as (tm & Hs). unfold calls. rewrite Hs, Ho. split.
  - cbn [with_timer s_dead]. rewrite Hd. rewrite (proj1 (reserves_silent _ R Hsil)). destruct H1. split; auto.
  - exact H2.
Qed.

Definition ok_in (i : input) : Prop := match i with I_lookup x => mine x = true -> x = r | I_ack c _ _ => c <> r_corr r | _ => True end.
Definition asked (i : input) : nat := match i with I_lookup x => one mine x | _ => 0 end.

Lemma find_erase c c' l : c' <> c -> dead_find c (dead_erase c' l) = dead_find c l.
Proof.
  intros H. unfold dead_find. induction l as [|y l IH]; cbn [dead_erase find]; [reflexivity|]. destruct (Z.eqb_spec (d_corr y) c') as [E|]; cbn [find].
  - destruct (Z.eqb_spec (d_corr y) c); [congruence|reflexivity].
  - destruct (_ =? _); [reflexivity|exact IH].
Qed.
Theorem step_call cfg e i n R rep s : inv s -> ok_in i -> st (n + asked i) R rep s -> calls n (reserve1 R (Rcv e i)) rep (step cfg e i s).
Proof.
  intros Hi Hok H.
  assert (Hall : st (n + asked i) (reserve1 R (Rcv e i)) rep s) by (eapply st_sub; [|exact H]; intros h Hin; apply releases_sub in Hin; exact Hin).
  destruct i; cbn [step asked] in *; try rewrite Nat.add_0_r in *.
  - apply advertise_cases.
    + intros _. apply calls_silent; [exact Hall|reflexivity].
    + intros Hh -> ->. apply calls_silent; [|reflexivity]. apply st_remove; [exact Hi| |exact H]. intros y. cbn [releases]. rewrite Hh. cbn. apply Z.eqb_sym.
    + intros s0 i _ _ E _. apply calls_silent; [|reflexivity]. pose proof (exact_find h s) as Hx. pose proof (find_or_add_dt h s) as Hd. rewrite E in Hx, Hd. cbn [fst] in Hx, Hd. injection Hd as Hd _.
      assert (Hp : s_pend s0 = s_pend s /\ s_svc s0 = s_svc s) by (unfold find_or_add_seq in E; destruct (find_seq _ _); [injection E as <- <-; auto|]; destruct (insert _ _); injection E as <- <-; auto). destruct Hp as [Hp Hs].
      eapply st_exact; [| | | |exact Hall]; auto; [eapply exact_trans; [exact Hx|apply exact_eq; reflexivity]|apply smono_eq; exact Hs].
    + intros s0 s1 i Hh _ _ _ E. destruct (adv_seq_inv _ _ _ _ _ _ _ _ Hi Hh E) as [Hi1 Hq]. pose proof (adv_seq_dt cfg h alias add remove s) as Hd. pose proof (adv_seq_pend cfg h alias add remove s) as Hp.
      pose proof (exact_adv_seq cfg h alias add remove s) as Hx. pose proof (smono_adv_seq cfg h alias add remove s) as Hm. rewrite E in Hd, Hp, Hx, Hm. cbn [fst] in *. injection Hd as Hd _.
      apply calls_serve; [assumption|assumption|]. eapply st_exact; [| | | |exact Hall]; auto.
  - apply advertise_con_cases.
    + intros _. apply calls_silent; [exact Hall|reflexivity].
    + intros Hh ->. apply calls_silent; [|reflexivity]. apply st_remove; [exact Hi| |exact H]. intros y. cbn [releases]. rewrite Hh. cbn. apply Z.eqb_sym.
    + intros _ _ _. apply calls_silent; [exact Hall|reflexivity].
    + intros i _ _ _. apply calls_silent; [|reflexivity]. eapply st_exact; [| | | |exact Hall]; try reflexivity; [apply exact_eq; reflexivity|]. eapply smono_trans; [|apply smono_map]. apply smono_eq. reflexivity.
    + intros s1 found rest Hh _ -> Ep. pose proof (adv_con_dt cfg h alias order add remove s) as Hd. injection Hd as Hd _. pose proof (adv_con_pend cfg h alias order add remove s) as Hp.
      assert (H1 : st n (reserve1 R (Rcv e (I_concurrent h alias dir order add remove))) rep (adv_con cfg h alias order add remove s)).
      { eapply st_exact; [| | | |exact Hall]; auto; [apply exact_eq, adv_con_seq|apply smono_adv_con]. }
      apply calls_again; [apply inv_pend, adv_con_inv; assumption| |].
      * intros p Hin. apply (y_pend _ _ _ _ _ H1). eapply partition_sub; [exact Ep|auto].
      * eapply st_pend; [exact H1| |]; [rewrite (partition_waits mine _ _ _ _ Ep); lia|]. intros p Hin. eapply partition_sub; [exact Ep|auto].
  - apply calls_lookup; [exact Hi|exact Hok|]. exact Hall.
  - unfold discard. destruct (extract_first _ _) as [[p rest]|] eqn:E.
    + apply calls_silent; [|destruct reply; reflexivity]. destruct (extract_first_some _ _ _ _ E) as (a & b & Ea & Er & _). eapply st_pend; [exact Hall| |]; [rewrite (extract_waits mine _ _ _ _ E); lia|].
      intros y Hy. rewrite Ea. subst rest. apply in_app_or in Hy. apply in_or_app. destruct Hy; [auto|right; right; assumption].
    + apply calls_silent; [|destruct reply; reflexivity]. unfold st in *. cbn [with_seq s_dead]. eapply call_sub; try exact H; auto; cbn [with_seq s_pend]; try lia.
      * intros i q'. cbn [with_seq s_seq]. rewrite get_map. destruct (get (s_seq s) i) as [q|]; [|discriminate]. cbn [option_map]. intros [= <-] Hh. exists q. split; [reflexivity|].
        destruct (negb (idle q) && (c_corr (q_call q) =? corr)); [exfalso; exact (nil_not Hh)|auto].
      * apply smono_eq. reflexivity.
      * exact (y_pend _ _ _ _ _ H).
      * intros h Hin. unfold reserve1 in Hin. apply filter_In in Hin. destruct Hin as [Hin Hn]. cbn [releases snd] in Hn. apply negb_true_iff, orb_false_iff in Hn. destruct Hn as [Hn _].
        right. split; [exact Hin|]. intros i q Hq Ep Hh. exists q. cbn [with_seq s_seq]. rewrite get_map, Hq. cbn [option_map].
        replace (c_corr (q_call q) =? corr) with false; [rewrite andb_false_r; auto|]. symmetry. unfold has in Hh. rewrite Hh, Z.eqb_sym. exact Hn.
  - unfold ack. pose proof (ack_state_inv corr h trid s Hi) as Hi1. cbn [ok_in] in Hok.
    assert (Hr : exists tm, dead_remove corr s = with_timer tm (with_dead (dead_erase corr (s_dead s)) s)).
    { unfold dead_remove. destruct (s_dead s) as [|x l] eqn:Ed; [exists (s_timer s); destruct s; cbn in *; subst; reflexivity|]. cbv zeta. cbn [dead_erase]. destruct (d_corr x =? corr); [destruct l; eauto|]. exists (s_timer s). destruct s; reflexivity. }
    assert (Hs1 : exists l, fst (notify_tm (h_pid h) trid (dead_remove corr s)) = with_late l (dead_remove corr s)).
    { unfold notify_tm. destruct (negb trid); [exists (s_late (dead_remove corr s)); destruct (dead_remove corr s); reflexivity|]. destruct (extract_first _ _) as [[x l]|]; [exists l; reflexivity|exists (s_late (dead_remove corr s)); destruct (dead_remove corr s); reflexivity]. }
    pose proof (notify_silent (h_pid h) trid (dead_remove corr s)) as [_ Hsil]. destruct Hr as (tm & Hr). destruct Hs1 as (late & Hs1).
    destruct (notify_tm (h_pid h) trid (dead_remove corr s)) as [s1 o1]. cbn [fst snd] in *.
    assert (H1 : forall R, st n R rep s -> st n R rep s1).
    { intros R' H'. unfold st in *. rewrite Hs1, Hr. cbn [with_late with_timer with_dead s_dead]. eapply call_sub; try exact H'; auto; cbn [with_late with_timer with_dead s_pend]; try lia.
      - intros j q. eauto.
      - apply smono_eq. reflexivity.
      - left. apply find_erase. exact Hok.
      - exact (y_pend _ _ _ _ _ H').
      - intros h' Hin. right. split; [exact Hin|]. eauto. }
    unfold calls. rewrite then_eq. cbn [fst snd]. rewrite reserves_app, (proj1 (reserves_silent o1 _ Hsil)).
    assert (H2 : calls n (reserve1 R (Rcv e (I_ack corr h trid))) rep (match find_seq (h_ipc h) s1 with
      | None => (s1, [])
      | Some i => let s2 := with_seq (upd i q_free (s_seq s1)) s1 in
          if mem i (s_disabled s2) then match fan_reply corr (h_pid h) (s_fan s2) with Some (f, ds) => (with_fan f s2, map shutdown_fired ds) | None => (s2, [O_raise]) end
          else serve_first cfg e i s2 end)).
    { destruct (find_seq _ _) as [i|] eqn:Ef; [|apply calls_silent; [apply H1; exact Hall|reflexivity]]. destruct (find_seq_some _ _ _ Ef) as (q & Hq & Eq). cbv zeta.
      assert (H3 : st n (reserve1 R (Rcv e (I_ack corr h trid))) rep (with_seq (upd i q_free (s_seq s1)) s1)).
      { pose proof (H1 _ H) as H4. unfold st in *. cbn [with_seq s_dead]. eapply call_sub; try exact H4; auto; cbn [with_seq s_pend]; try lia.
        - intros j p. cbn [with_seq s_seq]. rewrite get_upd. destruct (Nat.eqb_spec j i) as [->|]; [|eauto]. rewrite Hq. intros [= <-] Hh. exfalso. exact (nil_not Hh).
        - apply smono_eq. reflexivity.
        - exact (y_pend _ _ _ _ _ H4).
        - intros h' Hin. unfold reserve1 in Hin. apply filter_In in Hin. destruct Hin as [Hin Hn]. cbn [releases fst] in Hn. apply negb_true_iff, Z.eqb_neq in Hn. right. split; [exact Hin|].
          intros j p Hp Ep Hh. exists p. split; [|auto]. cbn [with_seq s_seq]. rewrite get_upd. destruct (Nat.eqb_spec j i) as [->|]; [|exact Hp]. congruence. }
      cbn [with_seq s_disabled s_fan]. destruct (mem i _).
      - destruct (flive_reply corr (h_pid h) _ (i_fan _ Hi1)) as (fa & ds & -> & Hf). apply calls_silent; [|apply silent_shutdown]. eapply st_exact; [| | | |exact H3]; try reflexivity; [apply exact_eq; reflexivity|apply smono_eq; reflexivity].
      - apply calls_serve; [apply inv_free; exact Hi1| |exact H3]. cbn [with_seq s_seq]. rewrite get_upd, Nat.eqb_refl, Hq. eexists. reflexivity. }
    unfold calls in H2. cbv zeta in H2. eapply call_weak; [apply le_n| |exact H2]. rewrite in_app_iff. tauto.
  - unfold process_exit. pose proof (flive_failed pid _ (i_fan _ Hi)) as Hf. destruct (fan_failed pid (s_fan s)) as [fa ds]. cbn [fst] in Hf.
    pose proof (inv_remove_process (fun x => (h_pid x =? pid)%Z) _ (inv_fan s fa Hi Hf)) as Hr.
    assert (H1 : st n R rep (with_fan fa s)) by (eapply st_exact; [| | | |exact H]; try reflexivity; [apply exact_eq; reflexivity|apply smono_eq; reflexivity]).
    pose proof (st_remove n R rep (with_fan fa s) (fun x => (h_pid x =? pid)%Z) (Rcv e (I_exit pid)) (inv_fan s fa Hi Hf)) as H2.
    specialize (H2 (fun y => Z.eqb_sym _ _) H1). destruct (remove_process _ _) as [s1 cs]. cbn [fst] in Hr, H2. cbn [with_late s_pend].
    assert (Hsil : forallb silent (map shutdown_fired ds ++ map (fun c => O_error c false) cs) = true) by (rewrite forallb_app, silent_shutdown, silent_error; reflexivity).
    assert (H3 : st (n + waits mine (s_pend s1)) (reserve1 R (Rcv e (I_exit pid))) rep (with_pend [] (with_late (filter (fun x => negb (x =? pid)) (s_late s1)) s1))).
    { apply (st_pend n); [eapply st_exact; [| | | |exact H2]; try reflexivity; [apply exact_eq; reflexivity|apply smono_eq; reflexivity]|change (waits mine []) with 0%nat; cbn [with_late s_pend]; lia|intros p []]. }
    eapply calls_then; [apply calls_silent; [exact H3|exact Hsil]|]. cbn [fst snd]. rewrite (proj1 (reserves_silent _ _ Hsil)). apply calls_again; [apply inv_pend, inv_late; exact Hr| |].
    + intros p Hin. apply (y_pend _ _ _ _ _ H2). exact Hin.
    + eapply call_weak; [apply le_n| |exact H3]. tauto.
  - rewrite rcv_none by reflexivity. apply calls_timeout. exact H.
  - rewrite rcv_none by reflexivity. unfold prepare. destruct (prepare_each hs s) as [[[[s1 ns] is] us] ok] eqn:Ep. destruct (prepare_each_inv _ _ _ _ _ _ _ Hi Ep) as (Hi1 & -> & Hq1 & Hp1). cbv zeta.
    pose proof (prepare_each_dt _ _ _ _ _ _ _ Ep) as Hdt. injection Hdt as Hd _.
    assert (H1 : st n R rep s1) by (eapply st_exact; [| | | |exact H]; auto; [apply exact_eq; exact Hq1|eapply smono_prepare_each; eauto]).
    destruct (partition _ _) as [found rest] eqn:Epa.
    assert (H2 : calls n R rep (lookup_again cfg e found (with_pend rest s1))).
    { apply calls_again; [apply inv_pend; exact Hi1| |].
      - intros p Hin. apply (y_pend _ _ _ _ _ H1). eapply partition_sub; [exact Epa|auto].
      - eapply st_pend; [exact H1| |]; [rewrite (partition_waits mine _ _ _ _ Epa); lia|]. intros p Hin. eapply partition_sub; [exact Epa|auto]. }
    eapply calls_then; [exact H2|]. unfold calls in H2. set (s2 := fst (lookup_again _ _ _ _)) in *. set (now := match filter _ is with [] => match us with [] => [] | _ => _ end | _ => _ end).
    assert (Hn : forallb silent now = true).
    { subst now. destruct (filter (fun i => negb (seq_busy i s2)) is); [destruct us|]; reflexivity. }
    destruct (filter (fun i => seq_busy i s2) is) as [|b bs]; [apply calls_silent; [exact H2|exact Hn]|].
    destruct (fan_start _ _ _) as [fa ds]. apply calls_silent; [|rewrite forallb_app, Hn, silent_shutdown; reflexivity]. eapply st_exact; [| | | |exact H2]; try reflexivity; [apply exact_eq; reflexivity|apply smono_eq; reflexivity].
  - apply calls_silent; [|reflexivity]. eapply st_exact; [| | | |exact Hall]; try reflexivity; [apply exact_eq; reflexivity|apply smono_eq; reflexivity].
  - rewrite rcv_none by reflexivity. unfold discovered. destruct (extract_first _ _) as [[p rest]|] eqn:E; [|apply calls_silent; [exact H|reflexivity]]. cbv zeta.
    destruct (extract_first_some _ _ _ _ E) as (a & b & Ea & Er & _).
    assert (H1 : forall k, (k <= one mine (fst p))%nat -> st (n + k) R rep (with_pend rest s)).
    { intros k Hk. eapply st_pend; [exact H| |]; [rewrite (extract_waits mine _ _ _ _ E); lia|]. intros y Hy. rewrite Ea. subst rest. apply in_app_or in Hy. apply in_or_app. destruct Hy; [auto|right; right; assumption]. }
    match goal with |- calls _ _ _ (if ?x then _ else _) => destruct x end.
    + apply calls_lookup; [apply inv_pend; exact Hi| |apply H1; lia]. intros Hm. apply (y_pend _ _ _ _ _ H); [rewrite Ea; apply in_or_app; right; left; reflexivity|exact Hm].
    + assert (H2 : st n R rep (with_pend rest s)) by (rewrite <- (Nat.add_0_r n); apply H1; lia).
      destruct (r_sem _); (apply calls_silent; [assumption|reflexivity]).
  - rewrite rcv_none by reflexivity. apply calls_lost; assumption.
Qed.

Lemma run_call cfg l : forall R (rep : Prop) s, inv s -> (forall e i, In (e, i) l -> ok_in i) -> st (count (asks mine) (snd (run cfg l s))) R rep s ->
  st 0 (fold_left reserve1 (snd (run cfg l s)) R) (rep \/ In (Eff (O_error (caller_in r) true)) (snd (run cfg l s))) (fst (run cfg l s)).
Proof.
  induction l as [|[e i] l IH]; intros R rep s Hi Hok H; cbn [run]; cbn [run] in H; [cbn [fst snd fold_left]; eapply call_weak; [apply le_n| |exact H]; tauto|].
  pose proof (step_call cfg e i) as Hs. pose proof (proj1 (step_good cfg e i s Hi)) as Hi1. specialize (fun n R rep => Hs n R rep s Hi (Hok e i (or_introl eq_refl))).
  destruct (step cfg e i s) as [s1 o]. cbn [fst snd] in *. specialize (fun R rep => IH R rep s1 Hi1 (fun e' i' X => Hok e' i' (or_intror X))). destruct (run cfg l s1) as [s2 t]. cbn [fst snd] in *.
  assert (Hc : count (asks mine) (Rcv e i :: map Eff o ++ t) = (count (asks mine) t + asked i)%nat).
  { change (Rcv e i :: map Eff o ++ t) with ([Rcv e i] ++ map Eff o ++ t). rewrite !count_app, count_asks_eff. replace (count (asks mine) [Rcv e i]) with (asked i); [lia|].
    unfold count. cbn [filter]. destruct i; cbn [asks asked]; try reflexivity. unfold one. destruct (mine r0); reflexivity. }
  rewrite Hc in H. specialize (Hs _ _ _ H). unfold calls in Hs. cbn [fst snd] in Hs. specialize (IH _ _ Hs). cbn [fold_left]. rewrite fold_left_app.
  eapply call_weak; [apply le_n| |exact IH]. intros [[X|X]|X]; [auto| |]; right; right; apply in_or_app; [left; apply in_map; exact X|right; exact X].
Qed.
End Call.

Lemma run_received cfg l : forall s0 s1 t0, run cfg l s0 = (s1, t0) -> forall e' i', In (e', i') l -> In (Rcv e' i') t0.
Proof.
  induction l as [|[e i] l IH]; intros s0 s1 t0 E e' i' Hin; [destruct Hin|]. cbn [run] in E.
  destruct (step cfg e i s0) as [s2 o]. destruct (run cfg l s2) as [s3 t3] eqn:E3. injection E as <- <-. destruct Hin as [E1|Hin].
  - injection E1 as <- <-. left. reflexivity.
  - right. apply in_or_app. right. exact (IH _ _ _ E3 _ _ Hin).
Qed.

Theorem call_expires cfg l t s e r h d : reaches cfg l t s -> r_corr r <> 0 -> h_valid (r_proc r) = true -> no_reply r = false ->
  (forall e' x, In (Rcv e' (I_lookup x)) t -> r_corr x = r_corr r -> x = r) -> (count (asks (fun x => (r_corr x =? r_corr r)%Z)) t <= 1)%nat ->
  (forall e' h' k, ~ In (Rcv e' (I_ack (r_corr r) h' k)) t) ->
  In (h, r_corr r) (reserved t) -> In (d, r_corr r) (due t) -> d < e_now e ->
  In (Eff (O_error (mk_c (r_proc r) (r_corr r)) true)) t \/ In (O_error (mk_c (r_proc r) (r_corr r)) true) (snd (step cfg e I_timeout s)).
Proof.
  intros H Hc Hv Hn Hu Hcnt Hack Hres Hdue Hlt. pose proof (reaches_dd _ _ _ _ H) as [Hi D]. destruct H as (conf & Hrun).
  assert (Hcal : mk_c (r_proc r) (r_corr r) = caller_in r) by (unfold caller_in; rewrite Hn; reflexivity). rewrite Hcal.
  assert (Hin : forall e' i', In (e', i') l -> In (Rcv e' i') t).
  { eapply run_received; eauto. }
  assert (Hok : forall e' i', In (e', i') l -> ok_in r i').
  { intros e' i' X. specialize (Hin _ _ X). destruct i'; cbn [ok_in]; auto.
    - intros Hm. apply (Hu e' r0 Hin). apply Z.eqb_eq. exact Hm.
    - intros ->. exact (Hack _ _ _ Hin). }
  pose proof (run_call r Hc Hv Hn cfg l [] False (start cfg conf) (start_inv cfg conf) Hok) as G. rewrite Hrun in G. cbn [fst snd] in G.
  assert (G0 : st r (count (asks (mine r)) t) [] False (start cfg conf)).
  { unfold st. split; rewrite ?start_pend.
    - change (waits (mine r) []) with 0%nat. unfold mine. lia.
    - intros _ i q. rewrite start_seq, get_nil. discriminate.
    - intros i j q p. rewrite start_seq, get_nil. discriminate.
    - intros i q. rewrite start_seq, get_nil. discriminate.
    - intros i q x. rewrite start_seq, get_nil. discriminate.
    - intros h' [].
    - intros p []. }
  specialize (G G0). fold (reserved t) in G. destruct (calls_timeout r Hc Hv Hn e 0%nat _ _ s G) as [C1 C2]. unfold calls in C1.
  assert (Hex : exists x, In x (dead_expired (e_now e) (s_dead s)) /\ d_corr x = r_corr r).
  { pose proof (k_in _ _ _ _ D _ Hdue) as X. rewrite (dead_split (e_now e) (s_dead s)) in X. unfold dmap in X. rewrite map_app in X. apply in_app_or in X.
    destruct X as [X|X]; apply in_map_iff in X; destruct X as (x & Ex & Hx); injection Ex as E1 E2; [exists x; auto|].
    exfalso. apply (dead_rest_ge _ _ _ (k_sort _ _ _ _ D)) in Hx. lia. }
  specialize (C2 Hex). cbn [step].
  destruct (timeout_keeps e s) as [_ Hsil].
  destruct (y_trk _ _ _ _ _ _ C1 h) as [(i & q & Hq & _ & Hh)|[[[] |X]|X]]; [rewrite (proj1 (reserves_silent _ _ Hsil)); exact Hres|destruct (C2 i q Hq Hh)|left; exact X|right; exact X].
Qed.

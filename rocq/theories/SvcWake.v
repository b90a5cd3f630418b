(* No lost wakeup: while a lookup is queued, every server that advertises the service is reserved. *)
From Coq Require Import ZArith List Bool Lia.
From Verif Require Import FanModel SvcModel SvcSpec SvcLemmas SvcInv SvcStep SvcRes SvcCount SvcDir SvcRoute.
Import ListNotations.
Local Open Scope Z_scope.

(* every busy instance is a reservation of the history, for the same call or a consumed one *)
Definition covers2 (R : list (handle * Z)) (s : state) : Prop :=
  forall i q, get (s_seq s) i = Some q -> idle q = false -> exists c, In (q_proc q, c) R /\ (c_corr (q_call q) = c \/ q_call q = c_nil).
(* nothing becomes busy, busy calls stay or are consumed *)
Definition frees2 (s s' : state) : Prop :=
  forall i q', get (s_seq s') i = Some q' -> idle q' = false -> exists q, get (s_seq s) i = Some q /\ q_proc q' = q_proc q /\ idle q = false /\ (q_call q' = q_call q \/ q_call q' = c_nil).
Lemma frees2_eq s s' : s_seq s' = s_seq s -> frees2 s s'. Proof. intros E i q. rewrite E. eauto 6. Qed.
Lemma frees2_refl s : frees2 s s. Proof. apply frees2_eq. reflexivity. Qed.
Lemma frees2_trans a b c : frees2 a b -> frees2 b c -> frees2 a c.
Proof.
  intros H1 H2 i q Hq Hb. destruct (H2 i q Hq Hb) as (q1 & Hq1 & Hp1 & Hb1 & Hc1). destruct (H1 i q1 Hq1 Hb1) as (q2 & Hq2 & Hp2 & Hb2 & Hc2).
  exists q2. split; [exact Hq2|]. split; [congruence|]. split; [exact Hb2|]. destruct Hc1 as [-> | ->]; auto.
Qed.
Lemma covers2_frees R s s' : frees2 s s' -> covers2 R s -> covers2 R s'.
Proof.
  intros K T i q Hq Hb. destruct (K i q Hq Hb) as (q' & Hq' & -> & Hb' & Hc'). destruct (T i q' Hq' Hb') as (c & Hc & Ho). exists c. split; [exact Hc|].
  destruct Hc' as [-> | ->]; auto.
Qed.
Lemma covers2_sub R R' s : (forall x, In x R -> In x R') -> covers2 R s -> covers2 R' s.
Proof. intros H T i q Hq Hb. destruct (T i q Hq Hb) as (c & Hc & Ho). eauto. Qed.
(* a reservation of another process *)
Lemma covers2_filter p R s : (forall i q c, get (s_seq s) i = Some q -> idle q = false -> p (q_proc q, c) = false) -> covers2 R s -> covers2 (filter (fun y => negb (p y)) R) s.
Proof. intros H T i q Hq Hb. destruct (T i q Hq Hb) as (c & Hc & Ho). exists c. split; [apply filter_In; split; [exact Hc|]; rewrite (H i q c Hq Hb); reflexivity|exact Ho]. Qed.

Lemma still_frees2 s s' : still s s' -> frees2 s s'.
Proof.
  intros [K F] i q' Hq' Hb'. destruct (F i q' Hq' Hb') as (q & Hq & Hp & Hb). exists q. split; [exact Hq|]. split; [exact Hp|]. split; [exact Hb|].
  destruct (K i q Hq Hb) as (q1 & Hq1 & _ & _ & Hc). congruence.
Qed.

Definition busy (s : state) (h : handle) : Prop := exists i q, get (s_seq s) i = Some q /\ q_proc q = h /\ idle q = false.
Lemma busy_keeps s s' h : keeps s s' -> busy s h -> busy s' h.
Proof. intros K (i & q & Hq & Hp & Hb). destruct (K i q Hq Hb) as (q' & Hq' & Hp' & Hb' & _). exists i, q'. repeat split; congruence. Qed.

(* the services of an instance are those it is listed at *)
Definition full (s : state) : Prop := forall i q vi, get (s_seq s) i = Some q -> In vi (q_serv q) -> exists v, get (s_svc s) vi = Some v /\ In i (v_seq v).
Lemma full_same s s' : same_dir s s' -> full s -> full s'.
Proof. intros H F i q vi Hq Hin. destruct (same_get _ _ _ _ H Hq) as (q0 & Hq0 & _ & E). rewrite (sd_svc _ _ H). apply (F i q0 vi Hq0). congruence. Qed.

Section Wake.
Variable cfg : config.
Variable U : Z -> Prop.
Variable owner : Z -> Z.
Hypothesis HU : unambiguous cfg U.

(* the servers that advertise the service of a queued lookup are busy, but for [x] *)
Definition pb (x : handle -> Prop) (A : list (handle * Z)) (s : state) : Prop :=
  forall p h o, In p (s_pend s) -> In (h, o) A -> In (r_name (fst p)) (names cfg o) -> x h \/ busy s h.
Definition nobody (h : handle) : Prop := False.

Definition no_lost (o : list out) : Prop := forall ipc, ~ In (O_lost ipc) o.
Lemma no_lost_app a b : no_lost (a ++ b) <-> no_lost a /\ no_lost b.
Proof. unfold no_lost. split; [intros H; split; intros p Hp; apply (H p), in_or_app; auto|]. intros [H1 H2] p Hp. apply in_app_or in Hp. destruct Hp; [eapply H1|eapply H2]; eauto. Qed.
Lemma send_calm e r d dl s : no_lost (snd (send_reply e r d dl s)) -> send_reply e r d dl s = (s, [O_idle r d dl]).
Proof.
  unfold send_reply. rewrite then_eq. cbn [fst snd]. destruct (e_gone _ _); [|reflexivity]. intros H. exfalso. apply (H (h_ipc (r_proc r))). right. left. reflexivity.
Qed.

(* all busy, in terms of what is advertised *)
Lemma all_busy_adv A O s r h o : dir cfg U owner true A O s -> all_busy s r -> In (h, o) A -> In (r_name r) (names cfg o) -> busy s h.
Proof.
  intros D H HA Hn. destruct (dd_a2 _ _ _ _ _ _ _ D eq_refl _ HA) as (k & v & i & q & B & C & E & F & G). cbn [fst snd] in *. subst o.
  exists i, q. split; [exact F|]. split; [exact G|]. apply (H k v i q); auto. apply (n_all _ _ _ (dd_n _ _ _ _ _ _ _ D) k v); auto.
Qed.

Record looks (r : request) (A : list (handle * Z)) (s : state) (x : state * list out) : Prop := {
  lo_keeps : keeps s (fst x);
  lo_pend : forall p, In p (s_pend (fst x)) -> In p (s_pend s) \/ (fst p = r /\ forall h o, In (h, o) A -> In (r_name r) (names cfg o) -> busy s h);
  lo_cov : forall R, covers2 R s -> covers2 (reserves R (snd x)) (fst x);
  (* if an instance that can serve is idle, one becomes busy *)
  lo_wake : forall h o, In (h, o) A -> In (r_name r) (names cfg o) -> (forall h' o', In (h', o') A -> In (r_name r) (names cfg o') -> h' = h \/ busy s h') -> busy (fst x) h }.

Lemma lookup_looks A O e r s : inv s -> dir cfg U owner true A O s -> no_lost (snd (lookup cfg e r s)) -> looks r A s (lookup cfg e r s).
Proof.
  intros Hi D Hl. pose proof (lookup_looked cfg e r s Hi) as L.
  assert (Hserved : forall h o, In (h, o) A -> In (r_name r) (names cfg o) -> exists vi v i q, lookup_name (r_name r) s = Some vi /\ get (s_svc s) vi = Some v /\ v_name v = o /\ In i (v_seq v) /\ get (s_seq s) i = Some q /\ q_proc q = h).
  { intros h o HA Hn. destruct (dd_a2 _ _ _ _ _ _ _ D eq_refl _ HA) as (k & v & i & q & B & C & E & F & G). cbn [fst snd] in *. exists k, v, i, q. repeat split; auto.
    apply (n_all _ _ _ (dd_n _ _ _ _ _ _ _ D) k v); [exact B|]. rewrite C. exact Hn. }
  assert (Hsil : forall s' o, (forall R, covers2 R s -> covers2 R s') -> forallb silent o = true -> forall R, covers2 R s -> covers2 (reserves R o) s').
  { intros s' o H1 H2 R HR. rewrite (proj1 (reserves_silent o R H2)). auto. }
  destruct (lookup cfg e r s) as [s' o]. cbn [fst snd] in L, Hl. destruct L.
  - split; cbn [fst snd]; [apply keeps_refl|auto|apply Hsil; auto|]. intros h o HA Hn _. exfalso. destruct (Hserved h o HA Hn) as (vi & v & i & q & B & C & E & F & G).
    destruct (H vi v B C) as [H1 _]. eapply has_seq_false; eauto.
  - assert (Ho : forallb silent (o ++ [O_queued r None]) = true) by (destruct H0 as [-> | (n & ->)]; reflexivity).
    split; cbn [fst snd]; [apply keeps_eq; reflexivity| |apply Hsil; [intros R; apply covers2_frees, frees2_eq; reflexivity|exact Ho]|].
    + cbn [queue with_pend s_pend]. intros p Hp. apply in_app_or in Hp. destruct Hp as [Hp | [<- | []]]; [auto|right]. split; [reflexivity|]. intros h o' HA Hn. eapply all_busy_adv; eauto.
    + intros h o' HA Hn _. apply (busy_keeps s); [apply keeps_eq; reflexivity|]. eapply all_busy_adv; eauto.
  - split; cbn [fst snd]; [apply keeps_eq; reflexivity| |apply Hsil; [intros R; apply covers2_frees, frees2_eq; reflexivity|reflexivity]|].
    + cbn [queue with_dead with_pend s_pend]. intros p Hp. apply in_app_or in Hp. destruct Hp as [Hp | [<- | []]]; [auto|right]. split; [reflexivity|]. intros h o' HA Hn. eapply all_busy_adv; eauto.
    + intros h o' HA Hn _. apply (busy_keeps s); [apply keeps_eq; reflexivity|]. eapply all_busy_adv; eauto.
  - split; cbn [fst snd]; [apply keeps_refl|auto|apply Hsil; auto|]. intros h o HA Hn _. eapply all_busy_adv; eauto.
  - rewrite <- surjective_pairing. rewrite send_calm by exact Hl. assert (Hq : s_seq s1 = s_seq s /\ s_pend s1 = s_pend s).
    { subst s1. destruct (r_gtrid r =? 0); [auto|]. destruct (assoc_of _ _); [destruct (mem _ _)|]; split; reflexivity. }
    destruct Hq as [Hq1 Hq2]. split; cbn [fst snd]; [apply keeps_eq; exact Hq1|rewrite Hq2; auto|apply Hsil; [intros R; apply covers2_frees, frees2_eq; exact Hq1|reflexivity]|].
    intros h o HA Hn _. exfalso. destruct (Hserved h o HA Hn) as (vi' & v' & j & q & B & C & E & F & G). assert (vi' = vi) by congruence. subst vi'. assert (v' = v) by congruence. subst v'.
    eapply has_seq_false; eauto.
  - rewrite <- surjective_pairing. rewrite send_calm by exact Hl.
    assert (Hk : keeps s s1). { subst s1. intros j p Hp Hb. cbn. rewrite get_upd. destruct (Nat.eqb_spec j i) as [->|]; [congruence|eauto 6]. }
    assert (Hb1 : busy s1 (q_proc q)). { exists i, (q_reserve vi (caller_in r) q). subst s1. cbn. rewrite get_upd, Nat.eqb_refl, H2. auto. }
    split; cbn [fst snd].
    + exact Hk.
    + subst s1. cbn. auto.
    + intros R HR. subst s1. unfold reserves. cbn [map fold_left]. unfold reserve1. cbn [releases negb]. rewrite filter_true. intros j p Hp Hb. cbn in Hp. rewrite get_upd in Hp.
      destruct (Nat.eqb_spec j i) as [->|].
      * rewrite H2 in Hp. injection Hp as <-. exists (r_corr r). cbn. split; [apply in_or_app; right; left; reflexivity|auto].
      * destruct (HR j p Hp Hb) as (c & Hc & Ho). exists c. split; [apply in_or_app; left; exact Hc|exact Ho].
    + intros h o HA Hn Hothers. destruct (Hothers (q_proc q) (v_name v)) as [<- | (j & p & B & C & E)].
      * apply (dd_a1 _ _ _ _ _ _ _ D). exists vi, v, i, q. auto.
      * eapply dir_lookup_name; eauto.
      * exact Hb1.
      * exfalso. assert (j = i) by (apply (i_ipc _ Hi j i p q); congruence). subst j. congruence.
Qed.

Record calm_step (A' : list (handle * Z)) (R : list (handle * Z)) (x : state * list out) : Prop := {
  cs_pb : pb nobody A' (fst x); cs_cov : covers2 (reserves R (snd x)) (fst x) }.

Lemma lookup_pb x A O e r R s : inv s -> dir cfg U owner true A O s -> no_lost (snd (lookup cfg e r s)) -> pb x A s -> covers2 R s ->
  pb x A (fst (lookup cfg e r s)) /\ covers2 (reserves R (snd (lookup cfg e r s))) (fst (lookup cfg e r s)).
Proof.
  intros Hi D Hl P C. destruct (lookup_looks A O e r s Hi D Hl) as [L1 L2 L3 L4]. split; [|auto]. intros p h o Hp HA Hn.
  destruct (L2 p Hp) as [Hp' | [E Hb]].
  - destruct (P p h o Hp' HA Hn) as [Hx|Hx]; [auto|right; eapply busy_keeps; eauto].
  - right. eapply busy_keeps; [exact L1|]. eapply Hb; eauto. rewrite <- E. exact Hn.
Qed.
Lemma again_pb A O e l : forall R s, inv s -> dir cfg U owner true A O s -> no_lost (snd (lookup_again cfg e l s)) -> pb nobody A s -> covers2 R s ->
  pb nobody A (fst (lookup_again cfg e l s)) /\ covers2 (reserves R (snd (lookup_again cfg e l s))) (fst (lookup_again cfg e l s)).
Proof.
  unfold lookup_again. induction l as [|p l IH]; intros R s Hi D Hl P C; cbn [each]; [split; [exact P|exact C]|]. rewrite then_fst, then_snd. cbn [each] in Hl. rewrite then_snd in Hl.
  apply no_lost_app in Hl. destruct Hl as [Hl1 Hl2]. destruct (lookup_pb nobody A O e (fst p) R s Hi D Hl1 P C) as [P1 C1].
  pose proof (looked_same _ _ _ _ _ _ (lookup_looked cfg e (fst p) s Hi)) as Hs. rewrite reserves_app. apply IH; auto; [eapply inv_same; eauto|eapply dir_same; eauto].
Qed.
Lemma serve_pb A O e i q R s : inv s -> dir cfg U owner true A O s -> full s -> get (s_seq s) i = Some q -> no_lost (snd (serve_first cfg e i s)) -> pb (eq (q_proc q)) A s -> covers2 R s ->
  pb nobody A (fst (serve_first cfg e i s)) /\ covers2 (reserves R (snd (serve_first cfg e i s))) (fst (serve_first cfg e i s)).
Proof.
  intros Hi D Fu Hq Hl P C. unfold serve_first in *. rewrite Hq in *. destruct (extract_first (provides q s) (s_pend s)) as [[p rest]|] eqn:Ex.
  - destruct (extract_first_some _ _ _ _ Ex) as (l1 & l2 & El & -> & Hprov & _).
    assert (Hi1 : inv (with_pend (l1 ++ l2) s)) by (apply inv_pend; exact Hi). assert (D1 : dir cfg U owner true A O (with_pend (l1 ++ l2) s)) by (eapply dir_same; [apply same_pend|exact D]).
    assert (P1 : pb (eq (q_proc q)) A (with_pend (l1 ++ l2) s)).
    { intros p' h o Hp. apply P. cbn in Hp. rewrite El. apply in_app_or in Hp. apply in_or_app. destruct Hp; [auto|right; right; assumption]. }
    assert (C1 : covers2 R (with_pend (l1 ++ l2) s)) by exact C.
    destruct (lookup_pb _ A O e (fst p) R _ Hi1 D1 Hl P1 C1) as [P2 C2]. split; [|exact C2].
    destruct (lookup_looks A O e (fst p) _ Hi1 D1 Hl) as [L1 L2 L3 L4].
    assert (Hb : busy (fst (lookup cfg e (fst p) (with_pend (l1 ++ l2) s))) (q_proc q)).
    { unfold provides in Hprov. destruct (lookup_name (r_name (fst p)) s) as [vi|] eqn:En; [|discriminate]. apply mem_In in Hprov. destruct (Fu i q vi Hq Hprov) as (v & Hv & Hin).
      apply (L4 (q_proc q) (v_name v)).
      - apply (dd_a1 _ _ _ _ _ _ _ D). exists vi, v, i, q. auto.
      - eapply dir_lookup_name; eauto.
      - intros h' o' HA' Hn'. destruct (P p h' o') as [Hx|Hx]; auto. rewrite El. apply in_or_app. right. left. reflexivity. }
    intros p' h o Hp HA Hn. right. destruct (P2 p' h o Hp HA Hn) as [<- | Hx]; [exact Hb|exact Hx].
  - split; [|exact C]. cbn [fst]. intros p h o Hp HA Hn. right. destruct (P p h o Hp HA Hn) as [<- | Hx]; [|exact Hx]. exfalso.
    destruct (dd_a2 _ _ _ _ _ _ _ D eq_refl _ HA) as (k & v & j & p' & B & C' & E & F & G). cbn [fst snd] in *. assert (j = i) by (apply (i_ipc _ Hi j i p' q); congruence). subst j.
    assert (p' = q) by congruence. subst p'. destruct (i_seq _ Hi k v i B E) as (q' & Hq' & Hs). assert (q' = q) by congruence. subst q'.
    pose proof (extract_first_none _ _ Ex p Hp) as Hno. unfold provides in Hno. rewrite (n_all _ _ _ (dd_n _ _ _ _ _ _ _ D) k v) in Hno; [|exact B|rewrite C'; exact Hn].
    rewrite (proj2 (mem_In _ _) Hs) in Hno. discriminate.
Qed.

(* ---------------------------------------------------------------- the services of the instances *)
Lemma full_find h s : inv s -> full s -> full (fst (find_or_add_seq h s)).
Proof.
  intros Hi F. unfold find_or_add_seq. destruct (find_seq _ _); [exact F|]. destruct (insert _ _) as [l k] eqn:E. destruct (insert_spec _ _ _ _ E) as [H1 H2]. cbn [fst].
  intros i q vi Hq Hin. cbn [with_seq s_seq s_svc] in *. rewrite H2 in Hq. destruct (Nat.eqb_spec i k); [injection Hq as <-; destruct Hin|]. eapply F; eauto.
Qed.
Lemma full_add i n s : inv s -> (exists q, get (s_seq s) i = Some q) -> full s -> full (add_seq_service cfg i n s).
Proof.
  intros Hi (q0 & Hq0) F. unfold add_seq_service. destruct (insert_service cfg _ s) as [s1 vi] eqn:E. pose proof (insert_service_grows _ _ _ _ _ Hi E) as G.
  destruct (gr_has _ _ _ _ G) as (v0 & Hv0). intros j q k Hq Hin. cbn [with_svc with_seq s_svc s_seq] in *. rewrite get_upd in Hq. rewrite get_upd.
  assert (Hold : forall q, get (s_seq s1) j = Some q -> In k (q_serv q) -> exists v, (if Nat.eqb k vi then option_map (v_add_seq i) (get (s_svc s1) vi) else get (s_svc s1) k) = Some v /\ In j (v_seq v)).
  { intros q' Hq' Hin'. rewrite (gr_seq _ _ _ _ G) in Hq'. destruct (F j q' k Hq' Hin') as (v & Hv & Hj). pose proof (grows_keep _ _ _ _ _ _ G Hv) as Hv'.
    destruct (Nat.eqb_spec k vi) as [->|]; [rewrite Hv'; eexists; split; [reflexivity|]; apply v_add_seq_in; auto|eauto]. }
  destruct (Nat.eqb_spec j i) as [->|]; [|eapply Hold; eauto]. destruct (get (s_seq s1) i) as [q1|] eqn:Eq; [|discriminate]. injection Hq as <-. cbn [q_add q_serv] in Hin.
  apply in_app_or in Hin. destruct Hin as [Hin | [<- | []]]; [eapply Hold; eauto|]. rewrite Nat.eqb_refl, Hv0. eexists. split; [reflexivity|]. apply v_add_seq_in. auto.
Qed.
Lemma full_removes i ns s : full s -> full (remove_seq_services i ns s).
Proof.
  unfold remove_seq_services. generalize (indexes (s_svc s)). intros l. revert s. induction l as [|k l IH]; intros s F; cbn [fold_left]; [exact F|]. apply IH.
  destruct (get (s_svc s) k) as [x|] eqn:Ek; [|exact F]. destruct (memz _ _); [|exact F]. intros j q vi Hq Hin. cbn [with_svc with_seq s_svc s_seq] in *. rewrite get_upd in Hq. rewrite get_upd.
  destruct (Nat.eqb_spec j i) as [->|].
  - destruct (get (s_seq s) i) as [q0|] eqn:E0; [|discriminate]. injection Hq as <-. cbn in Hin. apply erase_In in Hin. destruct Hin as [Hin Hne]. destruct (Nat.eqb_spec vi k); [congruence|]. eapply F; eauto.
  - destruct (F j q vi Hq Hin) as (v & Hv & Hj). destruct (Nat.eqb_spec vi k) as [->|]; [|eauto]. rewrite Hv. eexists. split; [reflexivity|]. apply v_del_seq_in. auto.
Qed.
Lemma full_adv h alias add rem s : inv s -> h_valid h = true -> full s -> full (fst (adv_seq cfg h alias add rem s)).
Proof.
  intros Hi Hv F. unfold adv_seq. pose proof (full_find h s Hi F) as F0. destruct (find_or_add_seq h s) as [s0 i] eqn:E. cbn [fst] in *.
  destruct (inv_add_instance _ _ _ _ Hi Hv E) as (Hi0 & q & Hq & _). apply full_removes.
  assert (G : forall l s, inv s -> (exists q, get (s_seq s) i = Some q) -> full s -> full (fold_left (fun s n => add_seq_service cfg i n s) l s)).
  { induction l as [|n l IH]; intros s1 Hi1 Hq1 F1; cbn [fold_left]; [exact F1|]. apply IH; [destruct Hq1; eapply inv_add_seq; eauto|apply add_seq_get; auto|apply full_add; auto]. }
  apply G; eauto.
Qed.
Lemma full_remove p s : full s -> full (fst (remove_process p s)).
Proof.
  intros F i q vi Hq Hin. rewrite remove_process_seq in Hq. destruct (get (s_seq s) i) as [q0|] eqn:E; [|discriminate]. destruct (p (q_proc q0)) eqn:Ep; [discriminate|]. injection Hq as <-.
  destruct (F i q0 vi E Hin) as (v & Hv & Hj). destruct (remove_process_spec p s) as (_ & B & _). cbv zeta in B. rewrite B, Hv. eexists. split; [reflexivity|].
  apply v_del_seqs_spec. rewrite (proj1 (proj2 (v_del_concs_spec _ _))). split; [exact Hj|]. intros Hh. apply in_having in Hh. destruct Hh as (x & Hx & Hpx). congruence.
Qed.
Lemma full_svc s s' : s_seq s' = s_seq s -> (forall k v, get (s_svc s) k = Some v -> exists v', get (s_svc s') k = Some v' /\ v_seq v' = v_seq v) -> full s -> full s'.
Proof. intros H1 H2 F i q vi Hq Hin. rewrite H1 in Hq. destruct (F i q vi Hq Hin) as (v & Hv & Hj). destruct (H2 vi v Hv) as (v' & Hv' & E). exists v'. rewrite E. auto. Qed.
Lemma full_adv_con h alias order add rem s : inv s -> h_valid h = true -> full s -> full (adv_con cfg h alias order add rem s).
Proof.
  intros Hi Hv F. unfold adv_con. destruct (find_or_add_con h s) as [s0 i] eqn:E. destruct (dir_find_or_add_con h s s0 i Hi E) as (E1 & E2 & E3 & _).
  destruct (inv_add_con_instance _ _ _ _ Hi Hv E) as (Hi0 & c & Hc & _).
  assert (F0 : full (with_con (upd i (fun c => mk_ci (ci_proc c) order) (s_con s0)) s0)) by (apply (full_svc s); [cbn; congruence|cbn; rewrite E1; eauto|exact F]).
  assert (G : forall l s, inv s -> (exists q, get (s_con s) i = Some q) -> full s -> full (fold_left (fun s x => add_con_service cfg i order x s) l s)).
  { induction l as [|[[n hops] t] l IH]; intros s1 Hi1 Hq1 F1; cbn [fold_left]; [exact F1|]. apply IH; [apply inv_add_con; auto|rewrite add_con_con; auto|].
    unfold add_con_service. destruct (insert_service cfg _ s1) as [s2 vi] eqn:E4. pose proof (insert_service_grows _ _ _ _ _ Hi1 E4) as G. apply (full_svc s1); [apply (gr_seq _ _ _ _ G)| |exact F1].
    intros k v Hk. apply (grows_keep _ _ _ _ _ _ G) in Hk. cbn [with_svc s_svc]. rewrite get_upd. destruct (Nat.eqb_spec k vi) as [->|]; [|eauto]. rewrite Hk. eexists. split; [reflexivity|].
    unfold v_add_conc. destruct (knows_conc i v); reflexivity. }
  assert (G2 : forall l s, full s -> full (fold_left (fun s v => match get (s_svc s) v with Some x => if memz (v_name x) rem then with_svc (upd v (v_del_conc i) (s_svc s)) s else s | None => s end) l s)).
  { induction l as [|k l IH]; intros s1 F1; cbn [fold_left]; [exact F1|]. apply IH. destruct (get (s_svc s1) k) as [x|] eqn:Ek; [|exact F1]. destruct (memz _ _); [|exact F1].
    apply (full_svc s1); [reflexivity| |exact F1]. intros j v Hj. cbn. rewrite get_upd. destruct (Nat.eqb_spec j k) as [->|]; [|eauto]. rewrite Hj. eexists. split; reflexivity. }
  apply G2. apply G; [apply inv_order; exact Hi0|cbn [with_con s_con]; rewrite get_upd, Nat.eqb_refl, Hc; eexists; reflexivity|exact F0].
Qed.

(* ---------------------------------------------------------------- one message *)
Definition tame (R : list (handle * Z)) (i : input) : Prop :=
  match i with I_discard _ c _ => c <> 0 /\ forall h, ~ In (h, c) R | _ => True end.

Lemma busy_remove p s h : p h = false -> busy s h -> busy (fst (remove_process p s)) h.
Proof. intros Hp (i & q & Hq & E & Hb). exists i, q. rewrite remove_process_seq, Hq, E, Hp. auto. Qed.
Lemma pb_remove p A s : pb nobody A s -> pb nobody (withdraw p A) (fst (remove_process p s)).
Proof.
  intros P q h o Hq HA Hn. rewrite remove_process_pend in Hq. apply filter_In in HA. destruct HA as [HA Hp]. cbn [fst] in Hp. apply negb_true_iff in Hp.
  right. destruct (P q h o Hq HA Hn) as [[]|Hb]. apply busy_remove; assumption.
Qed.
Lemma covers2_remove p R s : covers2 R s -> covers2 (filter (fun y => negb (p (fst y))) R) (fst (remove_process p s)).
Proof.
  intros T i q Hq Hb. rewrite remove_process_seq in Hq. destruct (get (s_seq s) i) as [q0|] eqn:E; [|discriminate]. destruct (p _) eqn:Ep; [discriminate|].
  injection Hq as <-. destruct (T i q0 E Hb) as (c & Hc & Ho). exists c. split; [|exact Ho]. apply filter_In. split; [exact Hc|]. cbn. rewrite Ep. reflexivity.
Qed.
Lemma pb_keeps A A' s s' : keeps s s' -> (forall p, In p (s_pend s') -> In p (s_pend s)) -> (forall y, In y A' -> In y A) -> pb nobody A s -> pb nobody A' s'.
Proof. intros K H1 H2 P p h o Hp HA Hn. right. destruct (P p h o (H1 p Hp) (H2 _ HA) Hn) as [[]|Hb]. eapply busy_keeps; eauto. Qed.
Lemma extract_sub {X} f (l : list X) p rest : extract_first f l = Some (p, rest) -> forall x, In x rest -> In x l.
Proof. intros H x Hx. destruct (extract_first_some _ _ _ _ H) as (a & b & -> & -> & _). apply in_app_or in Hx. apply in_or_app. destruct Hx; [auto|right; right; assumption]. Qed.

Definition wakes (A' R' : list (handle * Z)) (x : state * list out) : Prop := pb nobody A' (fst x) /\ full (fst x) /\ covers2 (reserves R' (snd x)) (fst x).

Theorem step_wake A O R e i s : inv s -> dir cfg U owner true A O s -> dok true s -> full s -> pb nobody A s -> covers2 R s ->
  ok_input U owner true i -> not_fatal (snd (step cfg e i s)) -> no_lost (snd (step cfg e i s)) -> tame R i ->
  wakes (advertised1 cfg A (Rcv e i)) (reserve1 R (Rcv e i)) (step cfg e i s).
Proof.
  intros Hi D K F P C (Hown & Hserv & Hb) Hf Hl Ht.
  assert (Hstay : forall o, forallb silent o = true -> wakes A R (s, o)).
  { intros o Ho. split; [exact P|]. split; [exact F|]. cbn [fst snd]. rewrite (proj1 (reserves_silent o R Ho)). exact C. }
  destruct i; cbn [step tame] in *.
  - (* advertise *)
    cbn [handles services_of] in *. specialize (Hown h (or_introl eq_refl)). assert (Hu : Forall U add) by (apply Forall_forall; exact Hserv). clear Hf. revert Hl.
    apply (advertise_cases cfg e h alias add remove s (fun x => no_lost (snd x) -> wakes (advertised1 cfg A (Rcv e (I_advertise h alias add remove))) (reserve1 R (Rcv e (I_advertise h alias add remove))) x)).
    + intros Hv _. rewrite rcv_none by (intros y; cbn [releases]; destruct add; [destruct remove; [rewrite Hv|]|]; reflexivity).
      unfold advertised1. rewrite Hv. cbn [negb]. apply Hstay. reflexivity.
    + intros Hv -> -> _. cbn [advertised1]. rewrite Hv. cbn [negb]. split; [apply pb_remove; exact P|]. split; [apply full_remove; exact F|].
      unfold reserve1. cbn [releases]. rewrite Hv. cbn [andb fst snd]. unfold reserves. cbn [map fold_left].
      eapply covers2_sub; [|apply (covers2_remove (fun x => h_pid x =? h_pid h)), C]. intros x. rewrite !filter_In, (Z.eqb_sym (h_pid h)). tauto.
    + intros s0 i Hv _ E Em _. exfalso. destruct (dok_find true h s s0 i Hi E K) as [_ K0]. rewrite (K0 eq_refl) in Em. discriminate.
    + intros s0 s1 i Hv Hne E0 Em E Hl. rewrite advertised1_adv by assumption. rewrite rcv_none by (intros y; cbn [releases]; destruct add; [destruct remove; [destruct Hne; congruence|]|]; reflexivity).
      destruct (adv_seq_inv _ _ _ _ _ _ _ _ Hi Hv E) as [Hi1 (q & Hq)]. pose proof (dir_adv_seq cfg U owner HU true A O h alias add remove s s1 i Hi D Hv Hown Hu E) as D1.
      pose proof (adv_seq_still cfg h alias add remove s) as Hst. rewrite E in Hst. cbn [fst] in Hst. pose proof (full_adv h alias add remove s Hi Hv F) as F1. rewrite E in F1. cbn [fst] in F1.
      assert (Ep : q_proc q = h).
      { destruct (dir_find cfg U owner h true A O s s0 i Hi D Hv Hown E0) as [_ (q0 & Hq0 & Ep0)]. unfold adv_seq in E. rewrite E0 in E. injection E as <-.
        destruct (inv_add_instance _ _ _ _ Hi Hv E0) as (Hi0 & _).
        pose proof (proj2 (proj2 (remove_seqs_rest i remove (fold_left (fun s n => add_seq_service cfg i n s) (filter (g_allow cfg alias) add) s0))) i) as R2.
        destruct (proc_some _ _ _ _ R2 Hq) as (q1 & Hq1 & Epp). rewrite <- Epp.
        assert (G : forall l s2, inv s2 -> (exists q, get (s_seq s2) i = Some q /\ q_proc q = h) -> forall q, get (s_seq (fold_left (fun s n => add_seq_service cfg i n s) l s2)) i = Some q -> q_proc q = h).
        { induction l as [|n l IH]; intros s2 Hi2 (q2 & Hq2 & Ep2) q' Hq'; cbn [fold_left] in Hq'; [congruence|]. eapply IH; [| |exact Hq']; [eapply inv_add_seq; eauto|].
          pose proof (proj1 (proj2 (add_seq_rest cfg i n s2 Hi2)) i) as R3. apply eq_sym in R3. destruct (proc_some _ _ _ _ R3 Hq2) as (q3 & Hq3 & Ep3). exists q3. split; [exact Hq3|congruence]. }
        eapply G; [exact Hi0| |exact Hq1]. eauto. }
      destruct (serve_pb _ O e i q R s1 Hi1 D1 F1 Hq Hl) as [P1 C1].
      * intros p h' o Hp HA Hn. rewrite Ep. apply filter_In in HA. destruct HA as [HA _]. apply in_app_or in HA.
        pose proof (adv_seq_pend cfg h alias add remove s) as Epd. rewrite E in Epd. cbn [fst] in Epd. rewrite Epd in Hp. destruct HA as [HA|HA].
        -- right. destruct (P p h' o Hp HA Hn) as [[]|Hx]. eapply busy_keeps; [apply Hst|exact Hx].
        -- apply in_map_iff in HA. destruct HA as (o' & HA & _). injection HA as -> _. left. reflexivity.
      * eapply covers2_frees; [apply still_frees2; exact Hst|exact C].
      * split; [exact P1|]. split; [|exact C1]. eapply full_same; [|exact F1]. apply serve_same; eauto.
  - (* concurrent advertise *)
    cbn [handles services_of] in *. specialize (Hown h (or_introl eq_refl)). assert (Hu : Forall (fun x => U (fst (fst x))) add).
    { apply Forall_forall. intros x Hx. apply Hserv, in_map_iff. eauto. } clear Hf. revert Hl.
    apply (advertise_con_cases cfg e h alias dir order add remove s (fun x => no_lost (snd x) -> wakes (advertised1 cfg A (Rcv e (I_concurrent h alias dir order add remove))) (reserve1 R (Rcv e (I_concurrent h alias dir order add remove))) x)).
    + intros Hv _. rewrite rcv_none by (intros y; cbn [releases]; rewrite Hv; destruct dir; reflexivity). cbn [advertised1]. rewrite Hv.
      replace (match dir with Dir_reset => A | _ => A end) with A by (destruct dir; reflexivity). apply Hstay. reflexivity.
    + intros Hv -> _. cbn [advertised1]. rewrite Hv. split; [apply pb_remove; exact P|]. split; [apply full_remove; exact F|].
      unfold reserve1. cbn [releases]. rewrite Hv. cbn [andb fst snd]. unfold reserves. cbn [map fold_left].
      eapply covers2_sub; [|apply (covers2_remove (fun x => h_ipc x =? h_ipc h)), C]. intros x. rewrite !filter_In, (Z.eqb_sym (h_ipc h)). tauto.
    + intros Hv -> _ _. rewrite rcv_none by reflexivity. apply Hstay. reflexivity.
    + intros i Hv -> _ _. rewrite rcv_none by reflexivity. cbn [advertised1]. split; [exact P|]. split; [|exact C]. apply (full_svc s); [reflexivity| |exact F].
      intros k v Hk. cbn [fst]. unfold map_svc. cbn [with_svc s_svc with_con]. rewrite get_map, Hk. eexists. split; reflexivity.
    + intros s1 found rest Hv -> -> Ep Hl. rewrite rcv_none by reflexivity. cbn [advertised1]. pose proof (dir_adv_con cfg U owner HU true A O h alias order add remove s Hi D Hv Hown Hu) as D1.
      pose proof (adv_con_inv cfg h alias order add remove s Hi Hv) as Hi1. pose proof (adv_con_still cfg h alias order add remove s) as Hst. pose proof (full_adv_con h alias order add remove s Hi Hv F) as F1.
      pose proof (adv_con_pend cfg h alias order add remove s) as Epd. set (s1 := adv_con cfg h alias order add remove s) in *.
      assert (Hip : inv (with_pend rest s1)) by (apply inv_pend; exact Hi1).
      destruct (again_pb A _ e found R (with_pend rest s1) Hip (dir_same _ _ _ _ _ _ _ _ (same_pend s1 rest) D1) Hl) as [P1 C1].
      * apply (pb_keeps A A s); [apply (keeps_trans _ s1); [apply Hst|apply keeps_eq; reflexivity]| |auto|exact P]. cbn. intros p Hp. rewrite <- Epd. apply (elements_in_partition _ _ Ep). auto.
      * apply (covers2_frees R s); [apply (frees2_trans _ s1); [apply still_frees2; exact Hst|apply frees2_eq; reflexivity]|exact C].
      * split; [exact P1|]. split; [|exact C1]. eapply full_same; [apply again_same; exact Hip|]. eapply full_same; [apply same_pend|exact F1].
  - rewrite rcv_none by reflexivity. cbn [advertised1]. destruct (lookup_pb nobody A O e r R s Hi D Hl P C) as [P1 C1]. split; [exact P1|]. split; [|exact C1].
    eapply full_same; [|exact F]. eapply looked_same. apply lookup_looked. exact Hi.
  - (* discard *)
    cbn [advertised1]. destruct Ht as [Hc0 Hc].
    assert (HR : reserve1 R (Rcv e (I_discard ipc corr reply)) = R).
    { unfold reserve1. apply Z.eqb_neq in Hc0. cbn [releases]. rewrite Hc0. erewrite filter_ext_in; [apply filter_true|]. intros [h c] Hin. cbn [snd]. rewrite orb_false_r.
      destruct (Z.eqb_spec corr c); [subst; exfalso; eapply Hc; eauto|reflexivity]. }
    rewrite HR. unfold discard. destruct (extract_first _ _) as [[p rest]|] eqn:Ex.
    + assert (Ho : forallb silent (O_dropped (fst p) :: (if reply then [O_discard_reply ipc corr true] else [])) = true) by (destruct reply; reflexivity).
      split; [|split]; cbn [fst snd]; [|exact F|rewrite (proj1 (reserves_silent _ R Ho)); exact C]. apply (pb_keeps A A s); [apply keeps_eq; reflexivity| |auto|exact P]. apply (extract_sub _ _ _ _ Ex).
    + assert (Ho : forallb silent (if reply then [O_discard_reply ipc corr false] else []) = true) by (destruct reply; reflexivity).
      assert (Hsame : forall i, get (map (option_map (fun q => if negb (idle q) && (c_corr (q_call q) =? corr) then q_free q else q)) (s_seq s)) i = get (s_seq s) i).
      { intros i. rewrite get_map. destruct (get (s_seq s) i) as [q|] eqn:Eq; [|reflexivity]. cbn [option_map]. destruct (idle q) eqn:Eb; [reflexivity|]. cbn [negb andb].
        destruct (Z.eqb_spec (c_corr (q_call q)) corr) as [E|]; [|reflexivity]. exfalso. destruct (C i q Eq Eb) as (c & Hin & [Ec | Ec]).
        - subst. eapply Hc; eauto.
        - rewrite Ec in E. cbn in E. congruence. }
      split; [|split]; cbn [fst snd]; [| |rewrite (proj1 (reserves_silent _ R Ho))].
      * apply (pb_keeps A A s); [|auto|auto|exact P]. intros i q Hq Hb'. exists q. cbn [with_seq s_seq]. rewrite Hsame. auto.
      * intros i q vi Hq. cbn [with_seq s_seq s_svc] in *. rewrite Hsame in Hq. exact (F i q vi Hq).
      * intros i q Hq. cbn [with_seq s_seq] in Hq. rewrite Hsame in Hq. exact (C i q Hq).
  - (* ack *)
    cbn [advertised1]. clear Hf. unfold ack in *. pose proof (notify_silent (h_pid h) trid (dead_remove corr s)) as [Hn1 Hn2]. pose proof (ack_state_inv corr h trid s Hi) as Hi1.
    assert (Hn : same_dir (with_late (s_late (fst (notify_tm (h_pid h) trid (dead_remove corr s)))) s) (fst (notify_tm (h_pid h) trid (dead_remove corr s)))).
    { pose proof (same_dead_remove corr s) as [S1 S2 S3 S4 S5 S6 S7]. unfold notify_tm. destruct (negb trid); [split; auto|]. destruct (extract_first _ _) as [[x l]|]; split; auto. }
    assert (Hpd : s_pend (fst (notify_tm (h_pid h) trid (dead_remove corr s))) = s_pend s).
    { assert (H0 : s_pend (dead_remove corr s) = s_pend s). { unfold dead_remove. destruct (s_dead s) as [|x r]; [reflexivity|]. destruct (d_corr x =? corr); [destruct r|]; reflexivity. }
      unfold notify_tm. destruct (negb trid); [exact H0|]. destruct (extract_first _ _) as [[x l]|]; exact H0. }
    assert (Hst : still s (fst (notify_tm (h_pid h) trid (dead_remove corr s)))) by (eapply still_trans; [apply still_dead_remove|apply still_eq; exact Hn1]).
    destruct (notify_tm (h_pid h) trid (dead_remove corr s)) as [s1 o1]. cbn [fst snd] in *.
    assert (D1 : dir cfg U owner true A O s1) by (eapply dir_same; [exact Hn|apply dir_late; exact D]).
    assert (K1 : dok true s1) by (eapply dok_same; [exact Hn|apply (dok_eq true s); auto]).
    assert (F1 : full s1) by (eapply full_same; [exact Hn|exact F]).
    assert (C1 : covers2 R s1) by (eapply covers2_frees; [apply still_frees2; exact Hst|exact C]).
    assert (P1 : pb nobody A s1) by (apply (pb_keeps A A s); [apply Hst|rewrite Hpd; auto|auto|exact P]).
    rewrite then_eq in *. cbn [fst snd] in *. unfold wakes. cbn [fst snd]. rewrite reserves_app, (proj1 (reserves_silent o1 _ Hn2)). apply no_lost_app in Hl. destruct Hl as [_ Hl].
    unfold reserve1. cbn [releases].
    destruct (find_seq (h_ipc h) s1) as [i|] eqn:Ef.
    2:{ cbn [fst snd]. split; [exact P1|]. split; [exact F1|]. unfold reserves. cbn [map fold_left]. apply (covers2_filter (fun y => h_ipc h =? h_ipc (fst y))); [|exact C1].
        intros j q c Hq _. cbn [fst]. apply Z.eqb_neq. intros E. eapply find_seq_none; eauto. }
    destruct (find_seq_some _ _ _ Ef) as (q & Hq & Eq). cbn [with_seq s_disabled s_fan] in *. destruct K1 as [_ K1]. rewrite (K1 eq_refl) in *. cbn [mem existsb] in *.
    set (s2 := with_seq (upd i q_free (s_seq s1)) s1) in *. assert (Hsf : same_dir s1 s2) by (apply same_upd; reflexivity).
    assert (Hq2 : get (s_seq s2) i = Some (q_free q)) by (subst s2; cbn [with_seq s_seq]; rewrite get_upd, Nat.eqb_refl, Hq; reflexivity).
    assert (Hi2 : inv s2) by (apply inv_free; exact Hi1). assert (D2 : dir cfg U owner true A O s2) by (eapply dir_same; eauto). assert (F2 : full s2) by (eapply full_same; eauto).
    destruct (serve_pb A O e i _ (filter (fun y => negb (h_ipc h =? h_ipc (fst y))) R) s2 Hi2 D2 F2 Hq2 Hl) as [P3 C3].
    + intros p h' o Hp HA Hn'. destruct (P1 p h' o Hp HA Hn') as [[]|(j & p' & B & Ep & Hb')]. destruct (Nat.eq_dec j i) as [->|Hne]; [left; cbn; congruence|]. right.
      exists j, p'. subst s2. cbn [with_seq s_seq]. rewrite get_upd. destruct (Nat.eqb_spec j i); [congruence|auto].
    + intros j p Hp Hb'. subst s2. cbn [with_seq s_seq] in Hp. rewrite get_upd in Hp. destruct (Nat.eqb_spec j i) as [->|Hne]; [rewrite Hq in Hp; injection Hp as <-; discriminate|].
      destruct (C1 j p Hp Hb') as (c & Hc & Ho). exists c. split; [|exact Ho]. apply filter_In. split; [exact Hc|]. cbn [fst]. apply negb_true_iff, Z.eqb_neq. intros E. apply Hne.
      apply (i_ipc _ Hi1 j i p q); congruence.
    + split; [exact P3|]. split; [|exact C3]. eapply full_same; [apply serve_same; eauto|exact F2].
  - (* exit *)
    cbn [advertised1]. clear Hf. unfold process_exit in *. pose proof (flive_failed pid _ (i_fan _ Hi)) as Hf. destruct (fan_failed pid (s_fan s)) as [f ds]. cbn [fst] in Hf.
    assert (Df : dir cfg U owner true A O (with_fan f s)). { destruct D as [D1 D2 D3 D4 D5 D6 D7]. split; auto. apply (dn_same cfg U s); [apply same_names_eq; reflexivity|exact D1]. }
    pose proof (inv_fan s f Hi Hf) as Hif. pose proof (inv_remove_process (fun x => h_pid x =? pid) _ Hif) as Hr.
    pose proof (dir_remove cfg U owner true A O _ (fun x => h_pid x =? pid) Hif Df) as D1.
    pose proof (full_remove (fun x => h_pid x =? pid) (with_fan f s) F) as F1. pose proof (pb_remove (fun x => h_pid x =? pid) A (with_fan f s) P) as P1.
    pose proof (covers2_remove (fun x => h_pid x =? pid) R (with_fan f s) C) as C1.
    destruct (remove_process _ _) as [s1 cs]. cbn [fst] in Hr, D1, F1, P1, C1. set (s2 := with_pend [] (with_late _ s1)) in *.
    assert (Hi2 : inv s2) by (apply inv_pend, inv_late; exact Hr).
    assert (D2 : dir cfg U owner true (withdraw (fun x => h_pid x =? pid) A) (withdraw (fun x => h_pid x =? pid) O) s2) by (eapply dir_same; [apply same_pend|apply dir_late; exact D1]).
    rewrite then_eq in *. cbn [fst snd with_late s_pend] in *. apply no_lost_app in Hl. destruct Hl as [_ Hl].
    assert (Hsil : forallb silent (map shutdown_fired ds ++ map (fun c => O_error c false) cs) = true) by (rewrite forallb_app, silent_shutdown, silent_error; reflexivity).
    unfold wakes. cbn [fst snd]. rewrite reserves_app, (proj1 (reserves_silent _ _ Hsil)).
    destruct (again_pb _ _ e (s_pend s1) (reserve1 R (Rcv e (I_exit pid))) s2 Hi2 D2 Hl) as [P3 C3].
    + intros p h o [].
    + unfold reserve1. cbn [releases]. apply (covers2_sub (filter (fun y => negb (h_pid (fst y) =? pid)) R)); [intros x; rewrite !filter_In, Z.eqb_sym; tauto|exact C1].
    + split; [exact P3|]. split; [|exact C3]. eapply full_same; [apply again_same; exact Hi2|exact F1].
  - (* timeout *)
    rewrite rcv_none by reflexivity. cbn [advertised1]. destruct (timeout_keeps e s) as [H1 H2]. unfold wakes. rewrite (proj1 (reserves_silent _ R H2)).
    split; [|split; [|eapply covers2_frees; [apply still_frees2; exact H1|exact C]]].
    + apply (pb_keeps A A s); [apply H1| |auto|exact P]. unfold timeout. rewrite then_fst.
      assert (G : forall l s0, forall p, In p (s_pend (fst (each expire_one l s0))) -> In p (s_pend s0)).
      { induction l as [|x l IH]; intros s0 p Hp; cbn [each] in Hp; [exact Hp|]. rewrite then_fst in Hp. apply IH in Hp. revert Hp. unfold expire_one.
        destruct (extract_first _ (s_pend s0)) as [[p' rest]|] eqn:Ex; [cbn [fst with_pend s_pend]; apply (extract_sub _ _ _ _ Ex)|].
        destruct (d_serv x); [|auto]. destruct (d_target x); [|auto]. destruct (get (s_svc s0) _) as [v|]; [|auto]. destruct (get (s_seq s0) _) as [q|]; [|auto]. destruct (_ =? _); [|auto]. cbv zeta.
        destruct (h_valid _); [|auto]. cbn [fst]. destruct (v_fatal v); auto. }
      intros p Hp. destruct (dead_rest _ _); cbn [fst with_timer s_pend] in Hp; apply G in Hp; exact Hp.
    + unfold timeout. rewrite then_fst. assert (G : forall l s0, full s0 -> full (fst (each expire_one l s0))).
      { induction l as [|x l IH]; intros s0 F0; cbn [each]; [exact F0|]. rewrite then_fst. apply IH. unfold expire_one.
        assert (Hc : forall i, full (with_seq (upd i q_consume (s_seq s0)) s0)) by (intros i; eapply full_same; [apply same_upd; reflexivity|exact F0]).
        destruct (extract_first _ (s_pend s0)) as [[p' rest]|] eqn:Ex; [exact F0|].
        destruct (d_serv x); [|auto]. destruct (d_target x) as [i|]; [|auto]. destruct (get (s_svc s0) _) as [v|]; [|auto]. destruct (get (s_seq s0) _) as [q|]; [|auto]. destruct (_ =? _); [|auto]. cbv zeta.
        destruct (h_valid _); [|apply Hc]. cbn [fst]. destruct (v_fatal v); apply Hc. }
      destruct (dead_rest _ _); cbn [fst]; [apply G; exact F|]. eapply full_same; [apply same_timer|]. apply G. exact F.
  - destruct (Hb eq_refl).
  - rewrite rcv_none by reflexivity. split; [exact P|]. split; [exact F|exact C].
  - (* discovered *)
    rewrite rcv_none by reflexivity. cbn [advertised1]. unfold discovered in *. destruct (extract_first _ _) as [[p rest]|] eqn:Ex; [|apply Hstay; reflexivity]. cbv zeta in *.
    assert (D1 : dir cfg U owner true A O (with_pend rest s)) by (eapply dir_same; [apply same_pend|exact D]).
    assert (P1 : pb nobody A (with_pend rest s)) by (apply (pb_keeps A A s); [apply keeps_eq; reflexivity|apply (extract_sub _ _ _ _ Ex)|auto|exact P]).
    match goal with |- context [if ?x then _ else _] => destruct x end.
    + destruct (lookup_pb nobody A O e (fst p) R (with_pend rest s) (inv_pend _ _ Hi) D1 Hl P1) as [P2 C2]; [exact C|]. split; [exact P2|]. split; [|exact C2].
      eapply full_same; [eapply looked_same, lookup_looked, inv_pend, Hi|exact F].
    + destruct (r_sem (fst p)); [| |apply Hstay; reflexivity|]; (split; [exact P1|split; [exact F|cbn [fst snd]; rewrite (proj1 (reserves_silent [O_absent (fst p)] R eq_refl)); exact C]]).
  - exfalso. apply (Hl ipc). left. reflexivity.
Qed.

(* ---------------------------------------------------------------- a history *)
Fixpoint quiets (R : list (handle * Z)) (t : list obs) : Prop :=
  match t with
  | [] => True
  | x :: t => match x with
              | Rcv _ (I_prepare _ _) | Eff (O_lost _) | Eff (O_assassinate _ true) => False
              | Rcv _ (I_discard _ c _) => c <> 0 /\ forall h, ~ In (h, c) R
              | _ => True
              end /\ quiets (reserve1 R x) t
  end.
Lemma quiets_app R a b : quiets R (a ++ b) <-> quiets R a /\ quiets (fold_left reserve1 a R) b.
Proof. revert R. induction a as [|x a IH]; intros R; cbn [app quiets fold_left]; [tauto|]. rewrite IH. tauto. Qed.
Lemma quiets_eff o : forall R, quiets R (map Eff o) -> not_fatal o /\ no_lost o.
Proof.
  induction o as [|x o IH]; intros R H; cbn [map quiets] in H; [split; intros ? []|]. destruct H as [Hx H]. destruct (IH _ H) as [A B].
  split; intros p [->|Hp]; try contradiction; [eapply A; eauto|eapply B; eauto].
Qed.

Lemma run_wake l : forall A O R s, inv s -> dir cfg U owner true A O s -> dok true s -> full s -> pb nobody A s -> covers2 R s ->
  (forall e i, In (e, i) l -> ok_input U owner true i) -> quiets R (snd (run cfg l s)) ->
  wakes (fold_left (advertised1 cfg) (snd (run cfg l s)) A) (fold_left reserve1 (snd (run cfg l s)) R) (fst (run cfg l s), []).
Proof.
  induction l as [|[e i] l IH]; intros A O R s Hi D K F P C Hok Hq; cbn [run]; [split; [exact P|split; [exact F|exact C]]|].
  cbn [run] in Hq. pose proof (step_good cfg e i s Hi) as [Hi1 _]. pose proof (step_dir cfg U owner HU true A O e i s Hi D K (Hok e i (or_introl eq_refl))) as Hs.
  pose proof (step_wake A O R e i s Hi D K F P C (Hok e i (or_introl eq_refl))) as Hw.
  destruct (step cfg e i s) as [s1 o]. cbn [fst snd] in *. destruct (run cfg l s1) as [s2 t] eqn:E. cbn [fst snd quiets] in *. destruct Hq as [Hq1 Hq]. apply quiets_app in Hq. destruct Hq as [Hq2 Hq3].
  destruct (quiets_eff _ _ Hq2) as [Hf Hl]. destruct (Hs Hf) as [[D1 _] K1]. destruct Hw as (P1 & F1 & C1); auto; [destruct i; cbn [tame]; auto|]. cbn [fst snd] in *.
  specialize (IH _ _ _ s1 Hi1 D1 K1 F1 P1 C1 (fun e' i' H => Hok e' i' (or_intror H))). rewrite E in IH. cbn [fst snd] in IH. specialize (IH Hq3).
  cbn [fold_left]. rewrite !fold_left_app, fold_advertised_eff. exact IH.
Qed.
End Wake.

(* The directory is consistent, and what a lookup can do. *)
From Coq Require Import ZArith List Bool Lia.
From Verif Require Import FanModel SvcModel SvcSpec SvcLemmas.
Import ListNotations.
Local Open Scope Z_scope.

(* ---------------------------------------------------------------- the fan-out, whatever the correlations *)
Record flive (f : fan Z Z) : Prop := {
  fl_look : forall c k, In (c, k) (f_lookup f) -> exists e p, In e (f_entries f) /\ e_key e = k /\ In p (e_pend e) /\ p_corr p = c /\ p_state p = Waiting;
  fl_keys : NoDup (map e_key (f_entries f));
  fl_next : forall e, In e (f_entries f) -> e_key e < f_next f }.

Lemma flive_empty : flive fan_empty.
Proof. split; cbn; [intros ? ? []|constructor|intros ? []]. Qed.

Lemma emplace_in2 c k l x : In x (lookup_emplace c k l) -> In x l \/ x = (c, k).
Proof. unfold lookup_emplace. destruct (lookup_has c l); [auto|]. rewrite in_app_iff. cbn. intuition. Qed.
Lemma emplaces_in k ps : forall l x, In x (fold_left (fun l p => lookup_emplace (p_corr p) k l) ps l) -> In x l \/ exists p, In p ps /\ x = (p_corr p, k).
Proof.
  induction ps as [|p ps IH]; intros l x H; cbn [fold_left] in H; [auto|].
  destruct (IH _ _ H) as [H1 | (q & Hq & ->)]; [|right; exists q; cbn; auto].
  destruct (emplace_in2 _ _ _ _ H1) as [H2 | ->]; [auto|]. right. exists p. cbn. auto.
Qed.

Lemma flive_start ps cb f : flive f -> flive (fst (fan_start ps cb f)).
Proof.
  intros [H1 H2 H3]. unfold fan_start.
  destruct (done _) eqn:E; cbn [fst]; split; cbn [f_lookup f_entries f_next].
  - exact H1.
  - exact H2.
  - intros e He. specialize (H3 e He). lia.
  - intros c k Hin. destruct (emplaces_in _ _ _ _ Hin) as [Ho | (p & Hp & Heq)].
    + destruct (H1 c k Ho) as (e & p & He & Hr). exists e, p. split; [apply in_or_app; auto|exact Hr].
    + injection Heq as -> ->. eexists. exists p. split; [apply in_or_app; right; left; reflexivity|]. cbn [e_key e_pend] in *.
      split; [reflexivity|]. split; [exact Hp|]. split; [reflexivity|].
      apply in_map_iff in Hp. destruct Hp as (x & <- & _). reflexivity.
  - rewrite map_app. cbn [map e_key]. apply NoDup_rev in H2. rewrite <- (rev_involutive (map _ _ ++ _)). apply NoDup_rev.
    rewrite rev_app_distr. cbn [rev app]. constructor; [|exact H2]. rewrite <- in_rev. intros Hin. apply in_map_iff in Hin.
    destruct Hin as (e & He & Hi). specialize (H3 e Hi). lia.
  - intros e He. apply in_app_or in He. destruct He as [He | [<- | []]]; [specialize (H3 e He); lia|cbn; lia].
Qed.

Lemma mark_received_some c ps : (exists p, In p ps /\ p_corr p = c) -> exists ps', mark_received c ps = Some ps'.
Proof.
  induction ps as [|p ps IH]; intros (q & Hq & Hc); [destruct Hq|]. cbn [mark_received].
  destruct (p_corr p =? c) eqn:E; [eauto|]. destruct Hq as [<-|Hq]; [apply Z.eqb_neq in E; congruence|].
  destruct IH as (ps' & ->); eauto.
Qed.
Lemma mark_received_keeps c ps ps' p : mark_received c ps = Some ps' -> In p ps -> p_corr p <> c -> In p ps'.
Proof.
  revert ps'. induction ps as [|q ps IH]; intros ps' H Hp Hc; cbn [mark_received] in H; [discriminate|].
  destruct (p_corr q =? c) eqn:E.
  - injection H as <-. destruct Hp as [<-|Hp]; [apply Z.eqb_eq in E; congruence|right; exact Hp].
  - destruct (mark_received c ps) as [r|] eqn:E2; [|discriminate]. injection H as <-.
    destruct Hp as [<-|Hp]; [left; reflexivity|right; eauto].
Qed.
Lemma lookup_erase_in2 c x l : In x (lookup_erase c l) <-> In x l /\ fst x <> c.
Proof.
  unfold lookup_erase. rewrite filter_In. destruct (fst x =? c) eqn:E; cbn.
  - apply Z.eqb_eq in E. intuition congruence.
  - apply Z.eqb_neq in E. intuition.
Qed.
Lemma nodup_key_eq {M C} (es : list (FanModel.entry M C)) e1 e2 : NoDup (map e_key es) -> In e1 es -> In e2 es -> e_key e1 = e_key e2 -> e1 = e2.
Proof.
  induction es as [|e es IH]; intros Hn H1 H2 Hk; [destruct H1|]. cbn in Hn. inversion Hn as [|? ? Ha Hb]; subst.
  destruct H1 as [<-|H1], H2 as [<-|H2]; auto.
  - exfalso. apply Ha. rewrite Hk. apply in_map. exact H2.
  - exfalso. apply Ha. rewrite <- Hk. apply in_map. exact H1.
Qed.

Lemma flive_reply c m f : flive f -> exists f' ds, fan_reply c m f = Some (f', ds) /\ flive f'.
Proof.
  intros [H1 H2 H3]. unfold fan_reply.
  destruct (find (fun x => fst x =? c) (f_lookup f)) as [[c0 k]|] eqn:Ef; [|exists f, []; split; [reflexivity|split; assumption]].
  apply find_some in Ef. destruct Ef as [Hin Hc]. cbn in Hc. apply Z.eqb_eq in Hc. subst c0.
  destruct (H1 c k Hin) as (e & p & He & Hk & Hp & Hpc & Hw).
  destruct (find (fun e0 => e_key e0 =? k) (f_entries f)) as [e'|] eqn:Ee.
  2:{ exfalso. apply (find_none _ _ Ee) in He. apply Z.eqb_neq in He. congruence. }
  apply find_some in Ee. destruct Ee as [He' Hk']. apply Z.eqb_eq in Hk'.
  assert (e' = e) by (eapply nodup_key_eq; eauto; congruence). subst e'.
  destruct (mark_received_some c (e_pend e)) as (ps & Hps); [eauto|]. rewrite Hps.
  destruct (done ps) eqn:Ed; eexists; eexists; (split; [reflexivity|]); split; cbn [f_lookup f_entries f_next].
  - intros c1 k1 Hi. apply lookup_erase_in2 in Hi. destruct Hi as [Hi Hne]. cbn in Hne.
    destruct (H1 c1 k1 Hi) as (e1 & p1 & He1 & Hk1 & Hp1 & Hpc1 & Hw1). destruct (Z.eq_dec k1 k) as [->|Hnk].
    + exfalso. assert (e1 = e) by (eapply nodup_key_eq; eauto; congruence). subst e1.
      assert (Hx : In p1 ps) by (eapply mark_received_keeps; eauto; congruence).
      unfold done in Ed. apply negb_true_iff in Ed. assert (existsb waiting ps = true); [|congruence].
      apply existsb_exists. exists p1. split; [exact Hx|]. unfold waiting. rewrite Hw1. reflexivity.
    + exists e1, p1. split; [|auto]. apply filter_In. split; [exact He1|]. apply negb_true_iff. apply Z.eqb_neq. congruence.
  - clear - H2. induction (f_entries f) as [|x es IH]; cbn; [constructor|]. cbn in H2. inversion H2 as [|? ? Ha Hb]; subst.
    destruct (negb (e_key x =? k)); cbn; [constructor; auto|auto]. intros Hi. apply Ha. apply in_map_iff in Hi.
    destruct Hi as (y & Hy & Hi). apply filter_In in Hi. rewrite <- Hy. apply in_map. tauto.
  - intros x Hx. apply filter_In in Hx. apply H3. tauto.
  - intros c1 k1 Hi. apply lookup_erase_in2 in Hi. destruct Hi as [Hi Hne]. cbn in Hne.
    destruct (H1 c1 k1 Hi) as (e1 & p1 & He1 & Hk1 & Hp1 & Hpc1 & Hw1). destruct (Z.eq_dec k1 k) as [->|Hnk].
    + assert (e1 = e) by (eapply nodup_key_eq; eauto; congruence). subst e1.
      eexists. exists p1. split; [apply in_map_iff; exists e; split; [|exact He]; rewrite Hk, Z.eqb_refl; reflexivity|]. cbn [e_key e_pend].
      split; [reflexivity|]. split; [eapply mark_received_keeps; eauto; congruence|auto].
    + exists e1, p1. split; [|auto]. apply in_map_iff. exists e1. split; [|exact He1].
      destruct (e_key e1 =? k) eqn:Ex; [apply Z.eqb_eq in Ex; congruence|reflexivity].
  - rewrite map_map. erewrite map_ext_in; [exact H2|]. intros x Hx. destruct (e_key x =? k) eqn:Ex; [|reflexivity].
    apply Z.eqb_eq in Ex. cbn. congruence.
  - intros x Hx. apply in_map_iff in Hx. destruct Hx as (y & <- & Hy). destruct (e_key y =? k) eqn:Ex; cbn; [|auto].
    apply Z.eqb_eq in Ex. rewrite <- Ex. auto.
Qed.

Lemma erases_in2 cs x : forall l, In x (fold_left (fun l c => lookup_erase c l) cs l) <-> In x l /\ ~ In (fst x) cs.
Proof.
  induction cs as [|c cs IH]; intros l; cbn [fold_left In]; [tauto|]. rewrite IH, lookup_erase_in2. intuition congruence.
Qed.

(* what Out::failed leaves *)
Lemma fail_entries_live id (es : list (FanModel.entry Z Z)) : forall l l' es' ds, fail_entries id l es = (l', es', ds) ->
  (forall x, In x l' -> In x l) /\
  (forall e, In e es' -> exists e0, In e0 es /\ e_key e = e_key e0) /\
  (NoDup (map e_key es) -> NoDup (map e_key es')) /\
  (forall e0 p c k, In (c, k) l' -> In e0 es -> e_key e0 = k -> In p (e_pend e0) -> p_corr p = c -> p_state p = Waiting ->
     exists e, In e es' /\ e_key e = k /\ In p (e_pend e)).
Proof.
  induction es as [|e es IH]; intros l l' es' ds H; cbn [fail_entries] in H.
  - injection H as <- <- <-. split; [auto|]. split; [intros ? []|]. split; [auto|]. intros ? ? ? ? ? [].
  - destruct (fail_entry id l e) as [[l1 o] d1] eqn:E1. destruct (fail_entries id l1 es) as [[l2 r'] d2] eqn:E2.
    injection H as <- <- <-. destruct (IH _ _ _ _ E2) as (A & B & C & D).
    assert (Hl : forall x, In x l1 -> In x l).
    { unfold fail_entry in E1. destruct (failed_corrs id (e_pend e)) as [|c cs] eqn:Ec; [injection E1 as <- <- <-; auto|].
      destruct (done _) in E1; injection E1 as <- <- <-; intros x Hx; apply (erases_in2 (c :: cs)) in Hx; tauto. }
    assert (Hkey : forall e', o = Some e' -> e_key e' = e_key e).
    { unfold fail_entry in E1. intros e' ->. destruct (failed_corrs id (e_pend e)) as [|c cs] eqn:Ec; [injection E1 as _ <- _; auto|].
      destruct (done _) in E1; [discriminate|]. injection E1 as _ <- _. reflexivity. }
    split; [auto|]. split; [|split].
    + intros x Hx. destruct o as [e'|].
      * destruct Hx as [<-|Hx]; [exists e; split; [left; reflexivity|apply Hkey; reflexivity]|].
        destruct (B x Hx) as (e0 & H0 & Hk0). exists e0. split; [right; exact H0|exact Hk0].
      * destruct (B x Hx) as (e0 & H0 & Hk0). exists e0. split; [right; exact H0|exact Hk0].
    + intros Hn. cbn in Hn. inversion Hn as [|? ? Ha Hb]; subst. destruct o as [e'|]; [|auto]. cbn. constructor; [|auto].
      rewrite (Hkey e' eq_refl). intros Hi. apply in_map_iff in Hi. destruct Hi as (y & Hy & Hi). destruct (B y Hi) as (e0 & H0 & Hk0).
      apply Ha. rewrite <- Hy, Hk0. apply in_map. exact H0.
    + intros e0 p c k Hck [<-|He0] Hk Hp Hpc Hw.
      * assert (Hin1 : In (c, k) l1) by auto. unfold fail_entry in E1.
        destruct (failed_corrs id (e_pend e)) as [|c0 cs] eqn:Ec.
        -- injection E1 as <- <- <-. exists e. split; [left; reflexivity|auto].
        -- assert (Hnc : ~ In c (c0 :: cs)).
           { destruct (done _) in E1; injection E1 as <- <- <-; apply (erases_in2 (c0 :: cs)) in Hin1; cbn [fst] in Hin1; tauto. }
           assert (Hid : (p_id p =? id) = false).
           { destruct (p_id p =? id) eqn:Eid; [|reflexivity]. exfalso. apply Hnc. rewrite <- Ec. unfold failed_corrs. rewrite <- Hpc.
             apply in_map. apply filter_In. auto. }
           assert (Hm : In p (mark_failed id (e_pend e))).
           { unfold mark_failed. apply in_map_iff. exists p. rewrite Hid. auto. }
           destruct (done (e_pend (mk_e (e_key e) (mark_failed id (e_pend e)) (e_recv e) (e_call e)))) eqn:Ed.
           ++ exfalso. cbn [e_pend] in Ed. unfold done in Ed. apply negb_true_iff in Ed.
              assert (existsb waiting (mark_failed id (e_pend e)) = true); [|congruence].
              apply existsb_exists. exists p. split; [exact Hm|]. unfold waiting. rewrite Hw. reflexivity.
           ++ injection E1 as <- <- <-. eexists. split; [left; reflexivity|]. cbn. auto.
      * destruct (D e0 p c k Hck He0 Hk Hp Hpc Hw) as (x & Hx & Hr). exists x. split; [|exact Hr]. destruct o; [right; exact Hx|exact Hx].
Qed.

Lemma flive_failed id f : flive f -> flive (fst (fan_failed id f)).
Proof.
  intros [H1 H2 H3]. unfold fan_failed. destruct (fail_entries id (f_lookup f) (f_entries f)) as [[l es] ds] eqn:E. cbn [fst].
  destruct (fail_entries_live _ _ _ _ _ _ E) as (A & B & C & D). split; cbn [f_lookup f_entries f_next].
  - intros c k Hi. destruct (H1 c k (A _ Hi)) as (e & p & He & Hk & Hp & Hpc & Hw).
    destruct (D e p c k Hi He Hk Hp Hpc Hw) as (x & Hx & Hkx & Hpx). exists x, p. auto.
  - auto.
  - intros e He. destruct (B e He) as (e0 & H0 & ->). auto.
Qed.

(* ---------------------------------------------------------------- the directory *)
Record inv (s : state) : Prop := {
  i_seq : forall vi v i, get (s_svc s) vi = Some v -> In i (v_seq v) -> exists q, get (s_seq s) i = Some q /\ In vi (q_serv q);
  i_con : forall vi v c, get (s_svc s) vi = Some v -> In c (v_conc v) -> exists x, get (s_con s) (cc_id c) = Some x;
  i_names : forall n vi, In (n, vi) (s_names s) -> exists v, get (s_svc s) vi = Some v;
  i_serv : forall i q vi, get (s_seq s) i = Some q -> In vi (q_serv q) -> exists v, get (s_svc s) vi = Some v;
  i_ipc : forall i j q q', get (s_seq s) i = Some q -> get (s_seq s) j = Some q' -> h_ipc (q_proc q) = h_ipc (q_proc q') -> i = j;
  i_cipc : forall i j q q', get (s_con s) i = Some q -> get (s_con s) j = Some q' -> h_ipc (ci_proc q) = h_ipc (ci_proc q') -> i = j;
  i_valid : forall i q, get (s_seq s) i = Some q -> h_valid (q_proc q) = true;
  i_cvalid : forall i q, get (s_con s) i = Some q -> h_valid (ci_proc q) = true;
  i_fan : flive (s_fan s) }.

Lemma inv_empty : inv empty.
Proof.
  split; cbn [empty s_svc s_seq s_con s_names s_fan]; try (intros ? ? ? H; rewrite get_nil in H; discriminate);
    try (intros ? ? H; rewrite get_nil in H; discriminate); try (intros ? ? ? ? H; rewrite get_nil in H; discriminate).
  - intros ? ? [].
  - apply flive_empty.
Qed.

(* what only changes reservations, deadlines, pending lookups and associations *)
Definition sid (q : seqi) : handle * list nat := (q_proc q, q_serv q).
Record same_dir (s s' : state) : Prop := {
  sd_svc : s_svc s' = s_svc s; sd_names : s_names s' = s_names s; sd_con : s_con s' = s_con s; sd_fan : s_fan s' = s_fan s;
  sd_late : s_late s' = s_late s; sd_dis : s_disabled s' = s_disabled s;
  sd_seq : forall i, option_map sid (get (s_seq s') i) = option_map sid (get (s_seq s) i) }.
Lemma same_refl s : same_dir s s.
Proof. split; reflexivity. Qed.
Lemma same_trans a b c : same_dir a b -> same_dir b c -> same_dir a c.
Proof. intros [] []. split; congruence. Qed.

Lemma same_get s s' i q' : same_dir s s' -> get (s_seq s') i = Some q' -> exists q, get (s_seq s) i = Some q /\ q_proc q = q_proc q' /\ q_serv q = q_serv q'.
Proof.
  intros H Hg. pose proof (sd_seq _ _ H i) as E. rewrite Hg in E. cbn in E. destruct (get (s_seq s) i) as [q|]; [|discriminate].
  cbn in E. unfold sid in E. injection E as E1 E2. exists q. repeat split; congruence.
Qed.
Lemma same_get2 s s' i q : same_dir s s' -> get (s_seq s) i = Some q -> exists q', get (s_seq s') i = Some q' /\ q_proc q = q_proc q' /\ q_serv q = q_serv q'.
Proof.
  intros H Hg. pose proof (sd_seq _ _ H i) as E. rewrite Hg in E. cbn in E. destruct (get (s_seq s') i) as [q'|]; [|discriminate].
  cbn in E. unfold sid in E. injection E as E1 E2. exists q'. repeat split; congruence.
Qed.

Lemma inv_same s s' : same_dir s s' -> inv s -> inv s'.
Proof.
  intros H [I1 I2 I3 I4 I5 I6 I7 I8 I9]. pose proof H as H'. destruct H' as [D1 D2 D3 D4 D5 D6 D7].
  split; try rewrite D1; try rewrite D2; try rewrite D3; try rewrite D4; try assumption.
  - intros vi v i Hv Hi. destruct (I1 vi v i Hv Hi) as (q & Hq & Hs). destruct (same_get2 _ _ _ _ H Hq) as (q' & Hq' & Hp & Hsv).
    exists q'. split; [exact Hq'|congruence].
  - intros i q vi Hq Hs. destruct (same_get _ _ _ _ H Hq) as (q0 & Hq0 & Hp & Hsv). apply (I4 i q0); congruence.
  - intros i j q q' Hq Hq' He. destruct (same_get _ _ _ _ H Hq) as (q0 & Hq0 & Hp & _). destruct (same_get _ _ _ _ H Hq') as (q1 & Hq1 & Hp1 & _).
    apply (I5 i j q0 q1); congruence.
  - intros i q Hq. destruct (same_get _ _ _ _ H Hq) as (q0 & Hq0 & Hp & _). rewrite <- Hp. eauto.
Qed.

Lemma same_upd s i f : (forall q, sid (f q) = sid q) -> same_dir s (with_seq (upd i f (s_seq s)) s).
Proof.
  intros Hf. split; cbn; try reflexivity. intros j. rewrite get_upd. destruct (Nat.eqb_spec j i) as [->|]; [|reflexivity].
  destruct (get (s_seq s) i); cbn; [rewrite Hf|]; reflexivity.
Qed.
Lemma same_pend s x : same_dir s (with_pend x s). Proof. split; reflexivity. Qed.
Lemma same_dead s x : same_dir s (with_dead x s). Proof. split; reflexivity. Qed.
Lemma same_timer s x : same_dir s (with_timer x s). Proof. split; reflexivity. Qed.
Lemma same_assoc s x : same_dir s (with_assoc x s). Proof. split; reflexivity. Qed.

Lemma same_undeliverable ipc s : same_dir s (undeliverable ipc s).
Proof.
  unfold undeliverable. destruct (find_seq ipc s); [|apply same_refl]. apply same_upd. reflexivity.
Qed.
Lemma same_send e r d dl s : same_dir s (fst (send_reply e r d dl s)).
Proof.
  unfold send_reply. rewrite then_eq. cbn [fst]. destruct (e_gone _ _); [apply same_undeliverable|apply same_refl].
Qed.

(* ---------------------------------------------------------------- what a lookup does *)
(* the deadline of a reply with a sequential instance *)
Inductive deadline_is (e : env) (r : request) (v : svc) (vi i : nat) (s : state) : option Z -> list entry -> timer -> Prop :=
| di_known x : dead_find (r_corr r) (s_dead s) = Some x ->
    deadline_is e r v vi i s (Some (d_when x)) (dead_update (r_corr r) i vi (s_dead s)) (s_timer s)
| di_new d : dead_find (r_corr r) (s_dead s) = None -> calculate_deadline v (e_now e) (r_deadline r) = Some d ->
    let x := mk_d d (r_corr r) (Some i) (Some vi) in
    deadline_is e r v vi i s (Some d) (dead_insert x (s_dead s)) (if dead_first x (s_dead s) then T_at d else s_timer s)
| di_none : dead_find (r_corr r) (s_dead s) = None -> calculate_deadline v (e_now e) (r_deadline r) = None ->
    deadline_is e r v vi i s None (s_dead s) (s_timer s).

Definition caller_in (r : request) : caller := mk_c (if no_reply r then h_nil else r_proc r) (r_corr r).
Definition all_busy (s : state) (r : request) : Prop :=
  forall vi v i q, lookup_name (r_name r) s = Some vi -> get (s_svc s) vi = Some v -> In i (v_seq v) -> get (s_seq s) i = Some q -> idle q = false.

(* nobody offers the service, to this requester *)
Definition unserved (s : state) (r : request) : Prop :=
  forall vi v, lookup_name (r_name r) s = Some vi -> get (s_svc s) vi = Some v -> has_seq v = false /\ (r_req r <> External -> prioritized v = []).

Inductive looked (cfg : config) (e : env) (r : request) (s : state) : state -> list out -> Prop :=
| lk_absent : unserved s r -> looked cfg e r s s [O_absent r]
| lk_queue o : all_busy s r -> (o = [] \/ exists n, o = [O_discover (r_corr r) n]) ->
    looked cfg e r s (queue e r s) (o ++ [O_queued r None])
| lk_queue_deadline d vi v : all_busy s r -> lookup_name (r_name r) s = Some vi -> get (s_svc s) vi = Some v -> has_seq v = true ->
    calculate_deadline v (e_now e) (r_deadline r) = Some d -> (r_sem r = Regular \/ r_sem r = Forward) ->
    looked cfg e r s (queue e r (with_dead (dead_insert (mk_d d (r_corr r) None None) (s_dead s)) s)) [O_queued r (Some d)]
| lk_forward : r_sem r = NoReply -> all_busy s r -> looked cfg e r s s [O_idle r (D_forward (g_forward cfg)) None]
| lk_con vi v i c s1 : lookup_name (r_name r) s = Some vi -> get (s_svc s) vi = Some v -> has_seq v = false -> r_req r <> External ->
    get (s_con s) i = Some c ->
    next_concurrent (e_pick e (r_corr r)) (if r_gtrid r =? 0 then [] else match assoc_of (r_gtrid r) s with Some l => l | None => [] end) v = Some i ->
    s1 = (if r_gtrid r =? 0 then s else match assoc_of (r_gtrid r) s with
                                        | Some l => if mem i l then s else set_assoc (r_gtrid r) (l ++ [i]) s
                                        | None => set_assoc (r_gtrid r) [i] s end) ->
    looked cfg e r s (fst (send_reply e r (D_con (ci_proc c)) (calculate_deadline v (e_now e) (r_deadline r)) s1))
                     (snd (send_reply e r (D_con (ci_proc c)) (calculate_deadline v (e_now e) (r_deadline r)) s1))
| lk_seq vi v i q d dl tm s1 : lookup_name (r_name r) s = Some vi -> get (s_svc s) vi = Some v -> In i (v_seq v) ->
    get (s_seq s) i = Some q -> idle q = true ->
    deadline_is e r v vi i s d dl tm ->
    s1 = with_timer tm (with_dead dl (with_seq (upd i (q_reserve vi (caller_in r)) (s_seq s)) s)) ->
    looked cfg e r s (fst (send_reply e r (D_seq (q_proc q)) d s1)) (snd (send_reply e r (D_seq (q_proc q)) d s1)).

Lemma first_idle_spec s l : (forall i, In i l -> exists q, get (s_seq s) i = Some q) ->
  match first_idle l s with
  | F_none => forall i q, In i l -> get (s_seq s) i = Some q -> idle q = false
  | F_some i => In i l /\ exists q, get (s_seq s) i = Some q /\ idle q = true
  | F_raise => False
  end.
Proof.
  induction l as [|i l IH]; intros H; cbn [first_idle]; [intros ? ? []|].
  destruct (H i (or_introl eq_refl)) as (q & Hq). rewrite Hq. destruct (idle q) eqn:E.
  - split; [left; reflexivity|eauto].
  - specialize (IH (fun j Hj => H j (or_intror Hj))). destruct (first_idle l s).
    + intros j q' [<-|Hj] Hq'; [congruence|eauto].
    + destruct IH as (Hj & Hx). split; [right; exact Hj|exact Hx].
    + exact IH.
Qed.

Lemma next_in pick pref v i : next_concurrent pick pref v = Some i -> exists c, In c (prioritized v) /\ cc_id c = i.
Proof.
  unfold next_concurrent. set (q := filter _ _). destruct q as [|c0 q'] eqn:E.
  - destruct (nth_error (prioritized v) _) as [c|] eqn:En; [|discriminate]. intros [= <-]. exists c. split; [eapply nth_error_In; eauto|reflexivity].
  - rewrite <- E. destruct (nth_error q _) as [c|] eqn:En; [|discriminate]. intros [= <-]. exists c. split; [|reflexivity].
    apply nth_error_In in En. subst q. apply filter_In in En. tauto.
Qed.
Lemma firstn_in {A} n (l : list A) x : In x (firstn n l) -> In x l.
Proof. revert l. induction n as [|n IH]; intros [|y l] H; cbn in *; try tauto. destruct H as [<-|H]; auto. Qed.

Lemma lookup_name_in n s vi : lookup_name n s = Some vi -> In (n, vi) (s_names s).
Proof.
  unfold lookup_name. destruct (find _ _) as [[n' i]|] eqn:E; [|discriminate]. intros [= <-]. apply find_some in E.
  destruct E as [H1 H2]. cbn in H2. apply Z.eqb_eq in H2. subst. exact H1.
Qed.

Lemma has_seq_false v i : has_seq v = false -> ~ In i (v_seq v).
Proof. unfold has_seq. destruct (v_seq v); [intros _ []|discriminate]. Qed.

Lemma lookup_looked cfg e r s : inv s -> looked cfg e r s (fst (lookup cfg e r s)) (snd (lookup cfg e r s)).
Proof.
  intros Hi. unfold lookup.
  assert (Hdisc : forall n, all_busy s r -> unserved s r -> looked cfg e r s (fst (discover e r n s)) (snd (discover e r n s))).
  { intros n Hb Hu. unfold discover. destruct (e_disc e); cbn [fst snd].
    - apply (lk_queue cfg e r s [O_discover (r_corr r) n]); eauto.
    - destruct (r_sem r); cbn [fst snd]; try (apply lk_absent; exact Hu). apply (lk_queue cfg e r s []); auto. }
  destruct (lookup_name (r_name r) s) as [vi|] eqn:En.
  2:{ assert (Hu : unserved s r) by (intros vi v H; congruence).
      destruct (r_req r); cbn [fst snd]; try (apply lk_absent; exact Hu). apply Hdisc; [intros vi v i q H; congruence|exact Hu]. }
  destruct (i_names s Hi _ _ (lookup_name_in _ _ _ En)) as (v & Hv). rewrite Hv.
  assert (Hint : forall x, internal_only cfg e r vi v s = Some x -> looked cfg e r s (fst x) (snd x)).
  { unfold internal_only. destruct (has_seq v) eqn:Es; [|discriminate]. pose proof (first_idle_spec s (v_seq v)) as Hf.
    destruct (first_idle (v_seq v) s) as [|i|].
    - intros x [= <-]. assert (Hb : all_busy s r).
      { intros vi' v' i q H1 H2 H3 H4. assert (vi' = vi) by congruence. subst. assert (v' = v) by congruence. subst.
        apply (Hf (fun j Hj => match i_seq s Hi vi v j Hv Hj with ex_intro _ q (conj a _) => ex_intro _ q a end) i q H3 H4). }
      unfold lookup_pending. destruct (r_sem r) eqn:Er; cbn [fst snd].
      + destruct (calculate_deadline v (e_now e) (r_deadline r)) as [d|] eqn:Ed; [rewrite Es; eapply lk_queue_deadline; eauto|].
        apply (lk_queue cfg e r s []); auto.
      + apply lk_forward; auto.
      + apply (lk_queue cfg e r s []); auto.
      + destruct (calculate_deadline v (e_now e) (r_deadline r)) as [d|] eqn:Ed; [rewrite Es; eapply lk_queue_deadline; eauto|].
        apply (lk_queue cfg e r s []); auto.
    - intros x [= <-]. destruct Hf as (Hin & q & Hq & Hid).
      { intros j Hj. destruct (i_seq s Hi vi v j Hv Hj) as (q & Hq & _). eauto. }
      unfold reply_seq. cbn [s_svc with_seq s_seq s_dead]. rewrite Hv, get_upd, Nat.eqb_refl, Hq. cbn [option_map q_proc q_reserve].
      destruct (dead_find (r_corr r) (s_dead s)) as [x|] eqn:Ed.
      + eapply lk_seq; eauto; [eapply di_known; exact Ed|]. reflexivity.
      + destruct (calculate_deadline v (e_now e) (r_deadline r)) as [d|] eqn:Ec.
        * eapply lk_seq; eauto; [eapply di_new; eauto|]. destruct (dead_first _ _); reflexivity.
        * eapply lk_seq; eauto; [eapply di_none; eauto|]. reflexivity.
    - exfalso. apply Hf. intros j Hj. destruct (i_seq s Hi vi v j Hv Hj) as (q & Hq & _). eauto. }
  assert (Hnone : internal_only cfg e r vi v s = None -> has_seq v = false).
  { unfold internal_only. destruct (has_seq v); [|reflexivity]. destruct (first_idle _ _); discriminate. }
  assert (Hbusy : has_seq v = false -> all_busy s r).
  { intros Hs vi' v' i q H1 H2 H3. assert (vi' = vi) by congruence. subst. assert (v' = v) by congruence. subst.
    exfalso. eapply has_seq_false; eauto. }
  assert (Huns : has_seq v = false -> (r_req r <> External -> prioritized v = []) -> unserved s r).
  { intros Hs Hp vi' v' H1 H2. assert (vi' = vi) by congruence. subst. assert (v' = v) by congruence. subst. auto. }
  assert (Hnone2 : forall k pref, next_concurrent k pref v = None -> prioritized v = []).
  { intros k pref. unfold next_concurrent. intros Hx. destruct (prioritized v) as [|c0 l0] eqn:Ep; [reflexivity|]. exfalso.
    assert (G : forall (l : list conc) x, nth_error (x :: l) (k mod length (x :: l)) <> None).
    { intros l x. apply nth_error_Some. apply Nat.mod_upper_bound. discriminate. }
    destruct (filter _ (c0 :: l0)) as [|c1 l1].
    - specialize (G l0 c0). destruct (nth_error _ _) in *; [discriminate|congruence].
    - specialize (G l1 c1). destruct (nth_error _ _) in *; [discriminate|congruence]. }
  assert (Hext : r_req r <> External -> looked cfg e r s (fst (match external_internal cfg e r vi v s with Some x => x | None => discover e r (v_name v) s end))
                                  (snd (match external_internal cfg e r vi v s with Some x => x | None => discover e r (v_name v) s end))).
  { intros Hne. unfold external_internal. destruct (internal_only cfg e r vi v s) as [x|] eqn:Ei; [apply Hint; reflexivity|].
    specialize (Hnone eq_refl).
    assert (Hc : forall pref i, next_concurrent (e_pick e (r_corr r)) pref v = Some i -> exists c, get (s_con s) i = Some c).
    { intros pref i Hnx. destruct (next_in _ _ _ _ Hnx) as (c & Hc & <-). apply firstn_in in Hc. eapply i_con; eauto. }
    destruct (r_gtrid r =? 0) eqn:Eg.
    - destruct (next_concurrent _ [] v) as [i|] eqn:Enx; [|apply Hdisc; eauto]. destruct (Hc _ _ Enx) as (c & Hgc).
      unfold reply_con. rewrite Hv, Hgc. eapply lk_con; eauto; rewrite Eg; [exact Enx|reflexivity].
    - destruct (assoc_of (r_gtrid r) s) as [l|] eqn:Ea.
      + destruct (next_concurrent _ l v) as [i|] eqn:Enx; [|apply Hdisc; eauto]. destruct (Hc _ _ Enx) as (c & Hgc).
        unfold reply_con.
        assert (Hsv : s_svc (if mem i l then s else set_assoc (r_gtrid r) (l ++ [i]) s) = s_svc s) by (destruct (mem i l); reflexivity).
        assert (Hcn : s_con (if mem i l then s else set_assoc (r_gtrid r) (l ++ [i]) s) = s_con s) by (destruct (mem i l); reflexivity).
        rewrite Hsv, Hcn, Hv, Hgc. eapply lk_con; eauto; rewrite Eg, Ea; [exact Enx|reflexivity].
      + destruct (next_concurrent _ [] v) as [i|] eqn:Enx; [|apply Hdisc; eauto]. destruct (Hc _ _ Enx) as (c & Hgc).
        unfold reply_con. cbn [set_assoc with_assoc s_svc s_con]. rewrite Hv, Hgc. eapply lk_con; eauto; rewrite Eg, Ea; [exact Enx|reflexivity]. }
  destruct (r_req r) eqn:Er.
  - apply Hext. discriminate.
  - destruct (internal_only cfg e r vi v s) as [x|] eqn:Ei; [apply Hint; reflexivity|]. apply lk_absent. apply Huns; [auto|congruence].
  - apply Hext. discriminate.
Qed.

Lemma looked_same cfg e r s s' o : looked cfg e r s s' o -> same_dir s s'.
Proof.
  intros H. destruct H; subst; try apply same_refl; try apply same_pend.
  - eapply same_trans; [apply same_dead|apply same_pend].
  - eapply same_trans; [|apply same_send]. destruct (r_gtrid r =? 0); [apply same_refl|].
    destruct (assoc_of _ _); [destruct (mem _ _); [apply same_refl|apply same_assoc]|apply same_assoc].
  - eapply same_trans; [|apply same_send]. eapply same_trans; [|apply same_timer]. eapply same_trans; [|apply same_dead].
    apply same_upd. reflexivity.
Qed.

Definition no_raise (o : list out) : Prop := ~ In O_raise o.
Lemma no_raise_app a b : no_raise a -> no_raise b -> no_raise (a ++ b).
Proof. unfold no_raise. rewrite in_app_iff. tauto. Qed.
Lemma send_no_raise e r d dl s : no_raise (snd (send_reply e r d dl s)).
Proof.
  unfold send_reply. rewrite then_eq. cbn [snd]. unfold no_raise. destruct (e_gone _ _); cbn; intuition discriminate.
Qed.
Lemma looked_no_raise cfg e r s s' o : looked cfg e r s s' o -> no_raise o.
Proof.
  intros H. destruct H; subst; try apply send_no_raise; unfold no_raise; try (cbn; intuition discriminate).
  destruct H0 as [-> | (n & ->)]; cbn; intuition discriminate.
Qed.

Lemma again_same cfg e l : forall s, inv s -> same_dir s (fst (lookup_again cfg e l s)) /\ no_raise (snd (lookup_again cfg e l s)).
Proof.
  unfold lookup_again. induction l as [|p l IH]; intros s Hi; cbn [each]; [split; [apply same_refl|intros []]|].
  rewrite then_fst, then_snd. pose proof (lookup_looked cfg e (fst p) s Hi) as Hl. pose proof (looked_same _ _ _ _ _ _ Hl) as Hs.
  destruct (IH _ (inv_same _ _ Hs Hi)) as [H1 H2]. split; [eapply same_trans; eauto|].
  apply no_raise_app; [eapply looked_no_raise; eauto|exact H2].
Qed.

Lemma serve_same cfg e i s : inv s -> (exists q, get (s_seq s) i = Some q) ->
  same_dir s (fst (serve_first cfg e i s)) /\ no_raise (snd (serve_first cfg e i s)).
Proof.
  intros Hi (q & Hq). unfold serve_first. rewrite Hq. destruct (extract_first _ _) as [[p rest]|]; [|split; [apply same_refl|intros []]].
  assert (Hi' : inv (with_pend rest s)) by (eapply inv_same; [apply same_pend|exact Hi]).
  pose proof (lookup_looked cfg e (fst p) _ Hi') as Hl. split; [|eapply looked_no_raise; eauto].
  eapply same_trans; [apply same_pend|eapply looked_same; eauto].
Qed.

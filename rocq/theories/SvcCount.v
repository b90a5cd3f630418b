(* Every lookup is answered once, or queued. *)
From Coq Require Import ZArith List Bool Lia.
From Verif Require Import FanModel SvcModel SvcSpec SvcLemmas SvcInv SvcStep SvcRes.
Import ListNotations.
Local Open Scope Z_scope.
Local Open Scope nat_scope.

Section Count.
Variable f : request -> bool.
Definition one (r : request) : nat := if f r then 1 else 0.
Definition waits (l : list (request * Z)) : nat := length (filter (fun p => f (fst p)) l).
Definition ans (o : list out) : nat := count (answers f) (map Eff o).
Definition bal (n : nat) (x : state * list out) : Prop := ans (snd x) + waits (s_pend (fst x)) = n.

Lemma waits_app a b : waits (a ++ b) = waits a + waits b.
Proof. unfold waits. rewrite filter_app, app_length. reflexivity. Qed.
Lemma waits_cons p l : waits (p :: l) = one (fst p) + waits l.
Proof. unfold waits, one. cbn. destruct (f (fst p)); reflexivity. Qed.
Lemma ans_app a b : ans (a ++ b) = ans a + ans b.
Proof. unfold ans, count. rewrite map_app, filter_app, app_length. reflexivity. Qed.
Lemma ans_none o : forallb (fun x => negb (answers (fun _ => true) (Eff x))) o = true -> ans o = 0.
Proof.
  induction o as [|x o IH]; intros H; [reflexivity|]. cbn [forallb] in H. apply andb_prop in H. destruct H as [H1 H2]. unfold ans, count in *. cbn [map filter].
  destruct x; try discriminate; exact (IH H2).
Qed.
Lemma extract_waits g l p rest : extract_first g l = Some (p, rest) -> waits l = one (fst p) + waits rest.
Proof.
  revert p rest. induction l as [|x l IH]; intros p rest H; cbn [extract_first] in H; [discriminate|]. destruct (g x).
  - injection H as <- <-. apply waits_cons.
  - destruct (extract_first g l) as [[y r]|]; [|discriminate]. injection H as <- <-. rewrite !waits_cons, (IH _ _ eq_refl). lia.
Qed.
Lemma partition_waits g l : forall a b, partition g l = (a, b) -> waits l = waits a + waits b.
Proof.
  induction l as [|x l IH]; intros a b H; cbn [partition] in H; [injection H as <- <-; reflexivity|]. destruct (partition g l) as [a' b'].
  specialize (IH _ _ eq_refl). destruct (g x); injection H as <- <-; rewrite !waits_cons; lia.
Qed.
Lemma bal_then n m x g : bal n x -> (bal (waits (s_pend (fst x)) + m) (g (fst x))) -> bal (n + m) (then_ x g).
Proof. unfold bal. rewrite then_fst, then_snd, ans_app. lia. Qed.
Lemma bal_then0 n x g : bal n x -> (bal (waits (s_pend (fst x))) (g (fst x))) -> bal n (then_ x g).
Proof. unfold bal. rewrite then_fst, then_snd, ans_app. lia. Qed.

Lemma undeliverable_pend ipc s : s_pend (undeliverable ipc s) = s_pend s.
Proof. unfold undeliverable. destruct (find_seq ipc s); reflexivity. Qed.
Lemma bal_send e r d dl s : bal (one r + waits (s_pend s)) (send_reply e r d dl s).
Proof.
  unfold send_reply, bal. rewrite then_fst, then_snd. cbn [fst snd]. unfold lost.
  destruct (e_gone e _); cbn [fst snd]; [rewrite undeliverable_pend|]; unfold ans, count, one; cbn; destruct (f r); reflexivity.
Qed.
Lemma bal_lookup cfg e r s : inv s -> bal (one r + waits (s_pend s)) (lookup cfg e r s).
Proof.
  intros Hi. pose proof (lookup_looked cfg e r s Hi) as L. destruct (lookup cfg e r s) as [s' o]. cbn [fst snd] in L. destruct L; unfold bal; cbn [fst snd].
  - unfold ans, count, one. cbn. destruct (f r); reflexivity.
  - rewrite ans_none by (destruct H0 as [-> | (n & ->)]; reflexivity). unfold queue. cbn [with_pend s_pend]. rewrite waits_app, waits_cons. cbn. lia.
  - rewrite ans_none by reflexivity. unfold queue. cbn [with_pend with_dead s_pend]. rewrite waits_app, waits_cons. cbn. lia.
  - unfold ans, count, one. cbn. destruct (f r); reflexivity.
  - rewrite bal_send. f_equal. subst s1. destruct (_ =? _)%Z; [reflexivity|]. destruct (assoc_of _ _); [destruct (mem _ _)|]; reflexivity.
  - rewrite bal_send. f_equal. subst s1. reflexivity.
Qed.
Lemma bal_again cfg e l : forall s, inv s -> bal (waits l + waits (s_pend s)) (lookup_again cfg e l s).
Proof.
  unfold lookup_again. induction l as [|p l IH]; intros s Hi; cbn [each]; [unfold bal; cbn; unfold ans, count; cbn; lia|].
  rewrite waits_cons. replace (one (fst p) + waits l + waits (s_pend s)) with ((one (fst p) + waits (s_pend s)) + waits l) by lia.
  apply bal_then; [apply bal_lookup; exact Hi|]. rewrite Nat.add_comm. apply IH. apply good_lookup. exact Hi.
Qed.
Lemma bal_serve cfg e i s : inv s -> (exists q, get (s_seq s) i = Some q) -> bal (waits (s_pend s)) (serve_first cfg e i s).
Proof.
  intros Hi (q & Hq). unfold serve_first. rewrite Hq. destruct (extract_first _ _) as [[p rest]|] eqn:E; [|reflexivity].
  rewrite (extract_waits _ _ _ _ E). apply bal_lookup. apply inv_pend. exact Hi.
Qed.
Lemma bal_silent s s' o : s_pend s' = s_pend s -> forallb (fun x => negb (answers (fun _ => true) (Eff x))) o = true -> bal (waits (s_pend s)) (s', o).
Proof. intros H1 H2. unfold bal. cbn [fst snd]. rewrite ans_none, H1 by exact H2. reflexivity. Qed.

Lemma insert_service_pend cfg v s : s_pend (fst (insert_service cfg v s)) = s_pend s.
Proof.
  unfold insert_service. destruct (g_routes cfg (v_name v)) as [|n0 ns].
  - destruct (lookup_name (v_name v) s); [reflexivity|]. destruct (insert v (s_svc s)). reflexivity.
  - destruct (lookup_name (v_name v) s); [reflexivity|]. destruct (first_known (n0 :: ns) s); [reflexivity|]. destruct (insert v (s_svc s)). reflexivity.
Qed.
Lemma fold_pend {A} (g : state -> A -> state) l : (forall s x, s_pend (g s x) = s_pend s) -> forall s, s_pend (fold_left g l s) = s_pend s.
Proof. intros Hg. induction l as [|x l IH]; intros s; cbn [fold_left]; [reflexivity|]. rewrite IH. apply Hg. Qed.
Lemma remove_process_pend p s : s_pend (fst (remove_process p s)) = s_pend s.
Proof. unfold remove_process. cbn [fst]. rewrite fold_pend by reflexivity. apply fold_pend. reflexivity. Qed.
Lemma adv_seq_pend cfg h alias add rem s : s_pend (fst (adv_seq cfg h alias add rem s)) = s_pend s.
Proof.
  unfold adv_seq. assert (H : s_pend (fst (find_or_add_seq h s)) = s_pend s).
  { unfold find_or_add_seq. destruct (find_seq _ _); [reflexivity|]. destruct (insert _ _). reflexivity. }
  destruct (find_or_add_seq h s) as [s0 i]. cbn [fst] in *. unfold remove_seq_services. rewrite fold_pend.
  - rewrite fold_pend; [exact H|]. intros s1 n. unfold add_seq_service. pose proof (insert_service_pend cfg (mk_v n (g_timeout cfg) (g_fatal cfg) [] [] 0) s1) as E.
    destruct (insert_service cfg _ s1). exact E.
  - intros s1 vi. destruct (get _ vi); [|reflexivity]. destruct (memz _ _); reflexivity.
Qed.
Lemma adv_con_pend cfg h alias order add rem s : s_pend (adv_con cfg h alias order add rem s) = s_pend s.
Proof.
  unfold adv_con. assert (H : s_pend (fst (find_or_add_con h s)) = s_pend s).
  { unfold find_or_add_con. destruct (find_con _ _); [reflexivity|]. destruct (insert _ _). reflexivity. }
  destruct (find_or_add_con h s) as [s0 i]. cbn [fst] in *. unfold remove_con_services. rewrite fold_pend.
  - rewrite fold_pend; [exact H|]. intros s1 [[n hops] t]. unfold add_con_service. pose proof (insert_service_pend cfg (mk_v n (if (0 <? t)%Z then Some t else None) false [] [] 0) s1) as E.
    destruct (insert_service cfg _ s1). exact E.
  - intros s1 vi. destruct (get _ vi); [|reflexivity]. destruct (memz _ _); reflexivity.
Qed.

Lemma shutdown_none ds : forallb (fun x => negb (answers (fun _ => true) (Eff x))) (map shutdown_fired ds) = true.
Proof. induction ds; cbn; auto. Qed.
Lemma error_none cs b : forallb (fun x => negb (answers (fun _ => true) (Eff x))) (map (fun c => O_error c b) cs) = true.
Proof. induction cs; cbn; auto. Qed.

Lemma bal_expire_one x s : bal (waits (s_pend s)) (expire_one x s).
Proof.
  unfold expire_one. destruct (extract_first _ _) as [[p rest]|] eqn:E.
  - unfold bal. cbn [fst snd]. rewrite (extract_waits _ _ _ _ E). unfold ans, count, one. cbn. destruct (f (fst p)); reflexivity.
  - destruct (d_serv x) as [vi|]; [|reflexivity]. destruct (d_target x) as [i|]; [|reflexivity]. destruct (get (s_svc s) vi) as [v|]; [|reflexivity].
    destruct (get (s_seq s) i) as [q|]; [|reflexivity]. destruct (_ =? _)%Z; [|reflexivity]. cbv zeta. destruct (h_valid _); [|reflexivity].
    apply bal_silent; [destruct (v_fatal v); reflexivity|reflexivity].
Qed.
Lemma bal_expire l : forall s, bal (waits (s_pend s)) (each expire_one l s).
Proof. induction l as [|x l IH]; intros s; cbn [each]; [reflexivity|]. apply bal_then0; [apply bal_expire_one|apply IH]. Qed.

Lemma bal_step cfg e i s : inv s -> bal ((if asks f (Rcv e i) then 1 else 0) + waits (s_pend s)) (step cfg e i s).
Proof.
  intros Hi. destruct i; cbn [step asks]; try (cbn [Nat.add]).
  - apply advertise_cases.
    + reflexivity.
    + intros _ _ _. apply bal_silent; [apply remove_process_pend|reflexivity].
    + intros s0 i _ _ E _. apply bal_silent; [|reflexivity]. unfold undisable. cbn [with_disabled s_pend]. unfold find_or_add_seq in E. destruct (find_seq _ _); [injection E as <- <-; reflexivity|].
      destruct (insert _ _). injection E as <- <-. reflexivity.
    + intros s0 s1 i Hv _ _ _ E. destruct (adv_seq_inv _ _ _ _ _ _ _ _ Hi Hv E) as [Hi1 Hq]. pose proof (adv_seq_pend cfg h alias add remove s) as Hp. rewrite E in Hp. cbn [fst] in Hp.
      rewrite <- Hp. apply bal_serve; assumption.
  - apply advertise_con_cases.
    + reflexivity.
    + intros _ _. apply bal_silent; [apply remove_process_pend|reflexivity].
    + reflexivity.
    + intros i _ _ _. apply bal_silent; reflexivity.
    + intros s1 found rest Hv _ -> Ep. rewrite (adv_con_pend cfg h alias order add remove s) in Ep. rewrite (partition_waits _ _ _ _ Ep).
      change (waits rest) with (waits (s_pend (with_pend rest (adv_con cfg h alias order add remove s)))). apply bal_again, inv_pend, adv_con_inv; assumption.
  - apply bal_lookup. exact Hi.
  - unfold discard. destruct (extract_first _ _) as [[p rest]|] eqn:E.
    + unfold bal. cbn [fst snd]. rewrite (extract_waits _ _ _ _ E). unfold ans, count, one. destruct reply; cbn; destruct (f (fst p)); reflexivity.
    + apply bal_silent; [reflexivity|destruct reply; reflexivity].
  - unfold ack. assert (Hd : s_pend (dead_remove corr s) = s_pend s).
    { unfold dead_remove. destruct (s_dead s) as [|x r]; [reflexivity|]. destruct (d_corr x =? corr)%Z; [destruct r|]; reflexivity. }
    pose proof (ack_state_inv corr h trid s Hi) as Hi1. apply bal_then0.
    + rewrite <- Hd. unfold notify_tm. destruct (negb trid); [reflexivity|]. destruct (extract_first _ _) as [[x l]|]; reflexivity.
    + destruct (find_seq _ _) as [i|] eqn:Ef; [|reflexivity]. destruct (find_seq_some _ _ _ Ef) as (q & Hq & _). cbn [with_seq s_disabled s_fan]. destruct (mem i _).
      * destruct (flive_reply corr (h_pid h) _ (i_fan _ Hi1)) as (fa & ds & -> & Hf). apply bal_silent; [reflexivity|apply shutdown_none].
      * change (s_pend (fst (notify_tm (h_pid h) trid (dead_remove corr s)))) with (s_pend (with_seq (upd i q_free (s_seq (fst (notify_tm (h_pid h) trid (dead_remove corr s))))) (fst (notify_tm (h_pid h) trid (dead_remove corr s))))).
        apply bal_serve; [apply inv_free; exact Hi1|]. cbn [with_seq s_seq]. rewrite get_upd, Nat.eqb_refl, Hq. eexists. reflexivity.
  - unfold process_exit. pose proof (flive_failed pid _ (i_fan _ Hi)) as Hf. destruct (fan_failed pid (s_fan s)) as [fa ds]. cbn [fst] in Hf.
    pose proof (inv_remove_process (fun x => (h_pid x =? pid)%Z) _ (inv_fan s fa Hi Hf)) as Hr. pose proof (remove_process_pend (fun x => (h_pid x =? pid)%Z) (with_fan fa s)) as Hp.
    destruct (remove_process _ _) as [s1 cs]. cbn [fst with_fan s_pend] in Hr, Hp. cbn [with_late s_pend].
    unfold bal. rewrite then_fst, then_snd, ans_app. cbn [fst snd]. rewrite ans_none by (rewrite forallb_app, shutdown_none, error_none; reflexivity).
    rewrite Nat.add_0_l. match goal with |- context [lookup_again cfg e (s_pend s1) ?y] => pose proof (bal_again cfg e (s_pend s1) y) as B end.
    unfold bal in B. rewrite B; [|apply inv_pend, inv_late; exact Hr]. cbn [with_pend with_late s_pend]. rewrite Hp. cbn. lia.
  - unfold timeout. apply bal_then0; [exact (bal_expire _ (with_dead (dead_rest (e_now e) (s_dead s)) s))|]. destruct (dead_rest _ _); reflexivity.
  - unfold prepare. destruct (prepare_each hs s) as [[[[s1 ns] is] us] ok] eqn:Ep. destruct (prepare_each_inv _ _ _ _ _ _ _ Hi Ep) as (Hi1 & -> & _ & Hp1). cbv zeta.
    destruct (partition _ _) as [found rest] eqn:Epa. rewrite <- Hp1, (partition_waits _ _ _ _ Epa). apply bal_then0.
    + change (waits rest) with (waits (s_pend (with_pend rest s1))). apply bal_again, inv_pend. exact Hi1.
    + set (s2 := fst _). set (now := match filter _ is with [] => match us with [] => [] | _ => _ end | _ => _ end).
      assert (Hn : forallb (fun x => negb (answers (fun _ => true) (Eff x))) now = true).
      { subst now. destruct (filter (fun i => negb (seq_busy i s2)) is); [destruct us|]; reflexivity. }
      destruct (filter (fun i => seq_busy i s2) is) as [|b bs]; [apply bal_silent; [reflexivity|exact Hn]|].
      destruct (fan_start _ _ _) as [fa ds]. apply bal_silent; [reflexivity|]. rewrite forallb_app, Hn, shutdown_none. reflexivity.
  - reflexivity.
  - unfold discovered. destruct (extract_first _ _) as [[p rest]|] eqn:E; [|reflexivity]. cbv zeta.
    match goal with |- bal _ (if ?x then _ else _) => destruct x end; [rewrite (extract_waits _ _ _ _ E); apply bal_lookup, inv_pend; exact Hi|].
    destruct (r_sem _); try reflexivity; unfold bal; cbn [fst snd]; rewrite (extract_waits _ _ _ _ E); unfold ans, count, one; cbn; destruct (f (fst p)); reflexivity.
  - apply bal_silent; [apply undeliverable_pend|reflexivity].
Qed.

Lemma count_app g a b : count g (a ++ b) = count g a + count g b.
Proof. unfold count. rewrite filter_app, app_length. reflexivity. Qed.
Lemma count_asks_eff o : count (asks f) (map Eff o) = 0.
Proof. unfold count. induction o as [|x o IH]; [reflexivity|exact IH]. Qed.
Lemma bal_run cfg l : forall s, inv s -> count (asks f) (snd (run cfg l s)) + waits (s_pend s) = count (answers f) (snd (run cfg l s)) + waits (s_pend (fst (run cfg l s))).
Proof.
  induction l as [|[e i] l IH]; intros s Hi; cbn [run]; [cbn; reflexivity|]. pose proof (bal_step cfg e i s Hi) as B. pose proof (proj1 (step_good cfg e i s Hi)) as Hi1.
  unfold bal in B. destruct (step cfg e i s) as [s1 o]. cbn [fst snd] in *. specialize (IH s1 Hi1). destruct (run cfg l s1) as [s2 t]. cbn [fst snd] in *.
  change (Rcv e i :: map Eff o ++ t) with ([Rcv e i] ++ map Eff o ++ t). rewrite !count_app, count_asks_eff. fold (ans o).
  replace (count (answers f) [Rcv e i]) with 0 by reflexivity. replace (count (asks f) [Rcv e i]) with (if asks f (Rcv e i) then 1 else 0) by (unfold count; cbn [filter]; destruct (asks f (Rcv e i)); reflexivity). lia.
Qed.
End Count.

Lemma start_pend cfg conf : s_pend (start cfg conf) = [].
Proof.
  unfold start. assert (H : forall s, s_pend s = [] -> s_pend (fold_left (fun s x => let '(n, t, f) := x in fst (insert_service cfg (mk_v n t f [] [] 0) s)) conf s) = []).
  { induction conf as [|[[n t] f] conf IH]; intros s Hs; cbn [fold_left]; [exact Hs|]. apply IH. rewrite insert_service_pend. exact Hs. }
  apply H. reflexivity.
Qed.
Theorem answered_once cfg l t s f : reaches cfg l t s -> count (asks f) t = count (answers f) t + length (filter f (queued s)).
Proof.
  intros (conf & H). pose proof (bal_run f cfg l _ (start_inv cfg conf)) as B. rewrite H, start_pend in B. cbn [fst snd] in B. cbn in B. rewrite Nat.add_0_r in B. rewrite B.
  f_equal. unfold waits, queued. clear. induction (s_pend s) as [|p ps IH]; cbn; [reflexivity|]. destruct (f (fst p)); cbn; auto.
Qed.

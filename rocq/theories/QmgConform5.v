(* The queue manager: updates are answered. *)
From Coq Require Import ZArith List Bool Lia.
From Verif Require Import QmgModel QmgSpec QmgProofs QmgEnt QmgQueues QmgOffers QmgLook QmgLook2 QmgAnswers QmgTasks QmgConform QmgConform2 QmgConform3 QmgConform4.
Import ListNotations.
Local Open Scope Z_scope.

Definition msg_of (i : input) : option message := match i with Connect f pid _ => Some (MConnect f pid) | Configured f pid _ => Some (MConfigured f pid) | Dead pid => Some (MDead pid) | _ => None end.
Lemma step_active i s : asks i = false -> match msg_of i with Some m => s_active (fst (step i s)) = s_active (fst (coordinate m s)) /\ exists ev, snd (step i s) = snd (coordinate m s) ++ ev | None => s_active (fst (step i s)) = s_active s end.
Proof.
  intro A. assert (F := frame i s A). destruct i as [m|l|p k|pid ipc n add rem|ipc n|ipc|k|p k|p k int names|f pid ipc|f pid qs|pid|pid|ipc|p k m| | |ipc]; try discriminate; cbn [msg_of]; try reflexivity.
  - cbn [step]. destruct (lookup_cases l s) as [(E & _)|[(x & E & _)|(E & _)]]; rewrite E; reflexivity.
  - cbn [step]. unfold discard_lookup. destruct (existsb _ _); reflexivity.
  - cbn [step check fst]. change (s_active (with_lookups _ ?x)) with (s_active x). unfold advertise.
    assert (B : forall l t, s_active (fold_left (add_remote pid ipc n) l t) = s_active t) by (induction l as [|q l IHl]; intro t; cbn; auto; now rewrite IHl). assert (C : forall l t, s_active (fold_left (remove_remote ipc) l t) = s_active t) by (induction l as [|q l IHl]; intro t; cbn; auto; now rewrite IHl).
    rewrite C, B. destruct (existsb _ _); reflexivity.
  - cbn [step check fst]. unfold order_of. destruct (existsb _ _); reflexivity.
  - cbn [step]. rewrite bind_fst. destruct (find _ _) as [l|]; [destruct (l_wait l)|]; reflexivity.
  - cbn [step]. rewrite bind_fst, bind_snd. split; [|eauto]. unfold connect. destruct (find_entity _ _); [destruct f|]; reflexivity.
  - destruct f; cbn [step]; rewrite bind_fst, bind_snd; (split; [|eauto]); [reflexivity|]. cbn [check fst]. set (s1 := fst (coordinate _ s)). change (s_active (with_lookups _ ?x)) with (s_active x). unfold update_group. destruct (find_entity _ _) as [en|]; [|reflexivity].
    assert (B : forall l t, s_active (fold_left (add_local en) l t) = s_active t) by (induction l as [|q l IHl]; intro t; cbn; auto; now rewrite IHl). rewrite B. reflexivity.
  - cbn [step]. rewrite bind_fst, bind_snd. split; [|eauto]. reflexivity.
  - cbn [step]. destruct (s_run s); [destruct (ready s)| |]; reflexivity.
Qed.
Lemma start_mod f l s p : In p (snd (start (TModify f l) s)) -> exists ipc c, In (Configure f p ipc c) (snd (fst (start (TModify f l) s))).
Proof.
  cbn. intro J. apply in_map_iff in J as ([e q] & <- & J). pose proof J as J'. apply in_flat_map in J as (c & _ & J). unfold modify_one in J. destruct (find _ _) as [en|]; [|destruct J]. destruct J as [J|[]]. injection J as <- <-. exists (e_ipc en), c. apply in_map_iff. eexists. split; [|exact J']. reflexivity.
Qed.
Lemma advance_mod m T : forall s f l ps p, s_active (fst (advance T m s)) = Some (TModify f l, ps) -> In p ps -> exists ipc c, In (Configure f p ipc c) (snd (advance T m s)).
Proof.
  induction T as [|t T IH]; intros s f l ps p; cbn [advance]; [discriminate|]. pose proof (fun l' => start_mod f l' s p) as SM. destruct (start t s) as [[s1 ev] ps1] eqn:X. destruct (handle t m ps1) as [|p0 r] eqn:Y.
  - specialize (IH s1 f l ps p). destruct (advance T m s1) as [s2 ev2]. cbn [fst snd] in *. intros H J. destruct (IH H J) as (ipc & c & K). exists ipc, c. apply in_or_app. auto.
  - cbn [fst snd with_coord s_active]. intros H J. injection H as -> <-. specialize (SM l). rewrite X in SM. cbn [fst snd] in SM. apply SM. eapply handle_in. rewrite Y. exact J.
Qed.
Lemma handle_mod f l m ps p : In p (handle (TModify f l) m ps) -> m <> MConfigured f p /\ m <> MDead p.
Proof.
  destruct m as [g pid|g pid|pid]; cbn [handle].
  - intros _. split; discriminate.
  - intro J. split; [|discriminate]. intro X. injection X as -> ->. rewrite eqb_reflx in J. apply in_erase in J as [_ J]. contradiction.
  - intro J. split; [discriminate|]. intro X. injection X as ->. apply in_erase in J as [_ J]. contradiction.
Qed.
Lemma coordinate_mod m s f l ps p : s_active (fst (coordinate m s)) = Some (TModify f l, ps) -> In p ps ->
  (exists ipc c, In (Configure f p ipc c) (snd (coordinate m s))) \/ (exists ps0, s_active s = Some (TModify f l, ps0) /\ In p ps0 /\ m <> MConfigured f p /\ m <> MDead p).
Proof.
  unfold coordinate. destruct (s_active s) as [[t ps0]|] eqn:X; [|cbn [fst]; congruence]. destruct (handle t m ps0) as [|p0 r] eqn:Y.
  - intros H J. left. eapply advance_mod; eauto.
  - cbn [fst snd with_coord s_active]. intros H J. injection H as -> <-. right. exists ps0. split; [auto|]. rewrite <- Y in J. split; [eapply handle_in; eauto|]. eapply handle_mod; eauto.
Qed.
Lemma andthen_mod t s f l ps p : s_active (fst (andthen t s)) = Some (TModify f l, ps) -> In p ps -> (exists ipc c, In (Configure f p ipc c) (snd (andthen t s))) \/ s_active s = Some (TModify f l, ps).
Proof.
  unfold andthen. destruct (s_active s) as [[t0 ps0]|] eqn:X; [cbn [fst with_coord s_active]; auto|]. pose proof (fun l' => start_mod f l' s p) as SM. destruct (start t s) as [[s1 ev] ps1] eqn:Y. cbn [fst snd with_coord s_active]. intros H J. left. destruct ps1; [discriminate|]. injection H as -> <-. specialize (SM l). rewrite Y in SM. apply SM. exact J.
Qed.
Lemma then_all_mod ts : forall s f l ps p, s_active (fst (then_all ts s)) = Some (TModify f l, ps) -> In p ps -> (exists ipc c, In (Configure f p ipc c) (snd (then_all ts s))) \/ s_active s = Some (TModify f l, ps).
Proof.
  induction ts as [|t ts IH]; intros s f l ps p; cbn [then_all]; [auto|]. pose proof (andthen_mod t s f l ps p) as A. destruct (andthen t s) as [s1 e1]. specialize (IH s1 f l ps p). destruct (then_all ts s1) as [s2 e2]. cbn [fst snd] in *. intros H J. destruct (IH H J) as [(ipc & c & K)|K]; [left; exists ipc, c; apply in_or_app; auto|]. destruct (A K J) as [(ipc & c & K')|K']; [left; exists ipc, c; apply in_or_app; auto|auto].
Qed.
Lemma reach_unreplied s h : reach s h -> forall f l ps p, s_active s = Some (TModify f l, ps) -> In p ps -> unreplied f p h.
Proof.
  induction 1 as [|s h i R IH Po]; intros f l ps p H J; [discriminate|]. destruct (asks i) eqn:A.
  - assert (X : (exists ipc c, In (Configure f p ipc c) (snd (step i s))) \/ s_active s = Some (TModify f l, ps)).
    { destruct i; try discriminate; cbn [step] in *.
      - unfold conform in *. eapply then_all_mod; eauto.
      - rewrite bind_fst in H. rewrite bind_snd. unfold conform in *. destruct (andthen_mod _ _ _ _ _ _ H J) as [(ipc & c & K)|K]; [left; exists ipc, c; apply in_or_app; auto|]. destruct (then_all_mod _ _ _ _ _ _ K J) as [(ipc & c & K')|K']; [left; exists ipc, c; apply in_or_app; auto|auto].
      - rewrite bind_fst in H. rewrite bind_snd. unfold conform in *. destruct (then_all_mod _ _ _ _ _ _ H J) as [(ipc & c & K')|K']; [left; exists ipc, c; apply in_or_app; auto|auto]. }
    destruct X as [(ipc & c & X)|X]; [eapply unreplied_now; eauto|]. apply unreplied_since; [eauto| |]; intros; intro; subst i; discriminate.
  - pose proof (step_active i s A) as S. destruct (msg_of i) as [m|] eqn:M.
    + destruct S as [S (ev & E)]. rewrite S in H. destruct (coordinate_mod _ _ _ _ _ _ H J) as [(ipc & c & K)|(ps0 & K1 & K2 & K3 & K4)]; [eapply unreplied_now; rewrite E; apply in_or_app; eauto|]. apply unreplied_since; [eauto| |]; intros; intro; subst i; injection M as <-; congruence.
    + rewrite S in H. apply unreplied_since; [eauto| |]; intros; intro; subst i; discriminate.
Qed.
Lemma answered_then s h : reach s h -> settled h -> (forall f pid, ~ unreplied f pid h) -> answered h.
Proof.
  intros R S U. destruct (reach_tinv s h R) as [TI _]. apply (answered_tells s h R). enough (X : s_active s = None) by (rewrite (t_idle _ _ _ TI X); intros p k []). destruct (s_active s) as [[t ps]|] eqn:X; auto. exfalso. destruct (t_act _ _ _ TI t ps X) as [N I]. destruct ps as [|p r]; [congruence|]. specialize (I p (or_introl eq_refl)). destruct t as [f l|f l|f l|p' k'].
  - destruct I as ((c & J) & NC & ND). specialize (S _ J). cbn in S. destruct S as [(q & S)|S]; [eapply NC; eauto|auto].
  - destruct I as ((q & J) & ND). specialize (S _ J). cbn in S. auto.
  - apply (U f p). eapply reach_unreplied; eauto. now left.
  - exact I.
Qed.

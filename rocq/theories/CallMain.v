From Coq Require Import ZArith List Bool Lia Sorting.Sorted.
From Verif Require Import CodesModel CtxModel CallModel CallSpec CallProofs CallMore.
Import ListNotations.
Local Open Scope Z_scope.

(* ---------------------------------------------------------------- a request is made once *)
Definition reqs (v : list event) : list Z := flat_map (fun x => match x with Request c _ _ => [c] | _ => [] end) v.
Lemma reqs_app a b : reqs (a ++ b) = reqs a ++ reqs b.
Proof. apply flat_map_app. Qed.
Lemma reqs_in v c : In c (reqs v) <-> exists d x, In (Request c d x) v.
Proof.
  unfold reqs. rewrite in_flat_map. split.
  - intros (y & I & J). destruct y; try destruct J as []; [subst; eauto|contradiction].
  - intros (d & x & I). exists (Request c d x). split; [exact I|left; reflexivity].
Qed.
Lemma acall_events e nt nr l s s' out ev : acall e nt nr l s = (s', out, ev) ->
  (ev = [] \/ ev = [Lookup (p_next s)] \/ exists d x, ev = [Lookup (p_next s); Request (p_next s) d x] /\ out = O_descriptor d) /\ ((forall d, out <> O_descriptor d) -> exists k, out = O_error k /\ reqs ev = []).
Proof.
  unfold acall. set (as' := in_transaction s && negb nt). destruct (as' && nr); [intros H; injection H as <- <- <-; split; [auto|intros _; eexists; split; reflexivity]|].
  destruct l as [send| | |]; try (intros H; injection H as <- <- <-; split; [auto|intros _; eexists; split; reflexivity]). destruct nr.
  - destruct send; intros H; injection H as <- <- <-; [split; [auto|intros _; eexists; split; reflexivity]|]. split; [right; right; eauto|]. intros N. destruct (N 0 eq_refl).
  - destruct (reserve _ _ _) as [ds d]. destruct send; intros H; injection H as <- <- <-; [split; [auto|intros _; eexists; split; reflexivity]|]. split; [right; right; eauto|]. intros N. destruct (N d eq_refl).
Qed.
Lemma get_reply_events e d any nb sg s s' out ev : get_reply e d any nb sg s = (s', out, ev) -> ev = [] \/ exists c r, ev = [Took c r].
Proof.
  unfold get_reply, nothing, complete. destruct any.
  - destruct (p_cache s) as [|[c r] l]; [intros H; injection H as <- <- <-; auto|]. destruct (get_corr _ _); intros H; injection H as <- <- <-; eauto.
  - destruct (get d (p_descs s)); [|intros H; injection H as <- <- <-; auto]. destruct (take _ _) as [[[c r] l]|]; intros H; injection H as <- <- <-; eauto.
Qed.
(* what tpcall does *)
Lemma tpcall_split e nt l arr s s' out ev : tpcall e nt l arr s = (s', out, ev) ->
  (ev = [] /\ out = O_error TPESYSTEM) \/
  (exists t1 s2 ev2, acall e nt false l (w_tx t1 s) = (s2, out, ev2) /\ (forall d, out <> O_descriptor d) /\ ev = ev2) \/
  (exists t1 s2 d ev2 s4 ev4, acall e nt false l (w_tx t1 s) = (s2, O_descriptor d, ev2) /\
     get_reply e d false false true (fold_left (fun s x => arrive (fst x) (snd x) s) arr s2) = (s4, out, ev4) /\ ev = ev2 ++ map (fun x => Arrived (fst x) (snd x)) arr ++ ev4).
Proof.
  unfold tpcall. set (su := in_transaction s && negb nt). destruct (if su then sync_suspend e (p_tx s) else (p_tx s, true)) as [t1 ok] eqn:SU.
  destruct ok; [|intros H; injection H as <- <- <-; auto]. destruct (acall e nt false l (w_tx t1 s)) as [[s2 o2] ev2] eqn:AC.
  assert (D : (exists d, o2 = O_descriptor d) \/ (forall d, o2 <> O_descriptor d)) by (destruct o2; eauto; right; discriminate). destruct D as [(d & ->) | D].
  - destruct (get_reply e d false false true _) as [[s4 o4] ev4] eqn:G. intros H. injection H as <- <- <-. right. right. exists t1, s2, d, ev2, s4, ev4. auto.
  - intros H. assert (E : (if su then w_tx (sync_resume e (p_tx s2)) s2 else s2, o2, ev2 ++ []) = (s', out, ev)) by (destruct o2; try exact H; exfalso; eapply D; reflexivity).
    injection E as <- <- <-. rewrite app_nil_r. right. left. exists t1, s2, ev2. auto.
Qed.
Lemma reqs_arrivals arr : reqs (map (fun x : Z * reply => Arrived (fst x) (snd x)) arr) = [].
Proof. induction arr; [reflexivity|exact IHarr]. Qed.
Lemma reqs_discards l : reqs (map Discarded l) = [].
Proof. induction l; [reflexivity|exact IHl]. Qed.
Lemma reqs_acall e nt nr l s s' out ev : acall e nt nr l s = (s', out, ev) -> reqs ev = [] \/ reqs ev = [p_next s].
Proof. intros H. apply acall_events in H. destruct H as ([-> | [-> | (d & x & -> & _)]] & _); auto. Qed.
Lemma reqs_get e d any nb sg s s' out ev : get_reply e d any nb sg s = (s', out, ev) -> reqs ev = [].
Proof. intros H. apply get_reply_events in H. destruct H as [-> | (c & r & ->)]; reflexivity. Qed.
Lemma reqs_step e i s s' out ev : xstep e i s = (s', out, ev) -> reqs ev = [] \/ reqs ev = [p_next s].
Proof.
  intros H. destruct i as [nt nr l|d any nb sg|d|nt l arr|c r|i]; cbn [xstep] in H.
  - exact (reqs_acall _ _ _ _ _ _ _ _ H).
  - rewrite getrply_plain in H. destruct (get_reply e d any nb sg s) as [[s1 o1] ev1] eqn:G. injection H as <- <- <-. left. exact (reqs_get _ _ _ _ _ _ _ _ _ G).
  - unfold cancel in H. destruct (get d (p_descs s)); [|injection H as <- <- <-; auto]. destruct (associated _ _); injection H as <- <- <-; auto.
  - apply tpcall_split in H. destruct H as [(-> & _) | [(t1 & s2 & ev2 & AC & _ & ->) | (t1 & s2 & d & ev2 & s4 & ev4 & AC & G & ->)]]; [auto| |].
    + exact (reqs_acall _ _ _ _ _ _ _ _ AC).
    + rewrite !reqs_app, reqs_arrivals, (reqs_get _ _ _ _ _ _ _ _ _ G), !app_nil_r. exact (reqs_acall _ _ _ _ _ _ _ _ AC).
  - injection H as <- <- <-. auto.
  - left. destruct i; cbn [xstep] in H;
      try (match type of H with (let '(_, _) := ?X in _) = _ => destruct X as [tt rr] end; injection H as <- <- <-; reflexivity); try (injection H as <- <- <-; reflexivity).
    destruct (step e _ _) as [t r]. injection H as <- <- <-. apply reqs_discards.
Qed.
Lemma run_reqs e is : forall s s' h o v, inv o v s -> hist o v s -> NoDup (reqs v) -> xrun e is s = (s', h) -> NoDup (reqs (v ++ events h)).
Proof.
  induction is as [|i is IH]; intros s s' h o v V I N H; cbn in H.
  - injection H as <- <-. cbn. rewrite app_nil_r. exact N.
  - destruct (xstep e i s) as [[s1 out] ev] eqn:ST. destruct (xrun e is s1) as [s2 h2] eqn:R. injection H as <- <-. cbn [events flat_map snd]. rewrite app_assoc.
    apply (IH s1 s2 h2 (after_entry o (i, out, ev))); [exact (step_inv e i s s1 out ev o v V ST)|exact (hist_step e i s s1 out ev o v V I ST)| |exact R].
    rewrite reqs_app. destruct (reqs_step _ _ _ _ _ _ ST) as [-> | ->]; [rewrite app_nil_r; exact N|]. apply NoDup_app_one; [exact N|]. intros J. apply reqs_in in J. destruct J as (d & x & J). pose proof (h_req _ _ _ I _ _ _ J). lia.
Qed.
Lemma reach_reqs e dyn fix0 is s h : xrun e is (CallModel.start dyn fix0) = (s, h) -> NoDup (reqs (events h)).
Proof. intros R. refine (run_reqs e is _ _ _ [] [] (inv_start dyn fix0) (hist_start dyn fix0) _ R). constructor. Qed.

(* ---------------------------------------------------------------- a call gets at most one reply *)
Definition untaken (o : list (Z * Z)) (v : list event) : Prop := forall d c, In (d, c) o -> taken c v = [].
Lemma untaken_events ev : forall o v, untaken o v -> NoDup (reqs (v ++ ev)) -> causal (v ++ ev) -> (forall c, taken c v <> [] -> exists r, In (Arrived c r) v) ->
  (forall a c r b, ev = a ++ Took c r :: b -> exists q, In (Arrived c q) (v ++ a)) -> untaken (fold_left after_event ev o) (v ++ ev).
Proof.
  induction ev as [|x ev IH]; intros o v U N C T TE; [rewrite app_nil_r; exact U|]. cbn [fold_left].
  replace (v ++ x :: ev) with ((v ++ [x]) ++ ev) in * by (rewrite <- app_assoc; reflexivity). apply IH; auto.
  - intros d c J. rewrite taken_app. destruct x as [c'|c' d' y|c' r|c' r|c']; cbn [after_event taken flat_map] in *; rewrite ?app_nil_r; try exact (U d c J).
    + destruct (d' =? 0); [exact (U d c J)|]. apply in_app_iff in J. destruct J as [J | [J | []]]; [exact (U d c J)|]. injection J as -> ->. destruct (taken c v) as [|r q] eqn:E; [reflexivity|]. exfalso.
      assert (NE : taken c v <> []) by congruence. destruct (T c NE) as (r' & A). apply in_split in A. destruct A as (a & b & A). rewrite reqs_app, A in N. rewrite A in C. destruct (C a c r' ((b ++ [Request c d y]) ++ ev)) as (d2 & x2 & _ & I2); [rewrite <- !app_assoc; reflexivity|].
      rewrite !reqs_app in N. cbn [reqs flat_map] in N. rewrite app_nil_r in N. change (flat_map _ b) with (reqs b) in N. rewrite <- !app_assoc in N. cbn [app] in N.
      assert (N2 : NoDup ((reqs a ++ reqs b) ++ c :: reqs ev)) by (rewrite <- app_assoc; exact N). apply NoDup_remove_2 in N2. apply N2. rewrite !in_app_iff. left. left. apply reqs_in. eauto.
    + apply filter_In in J. destruct J as (J & NE). apply negb_true_iff, Z.eqb_neq in NE. cbn in NE. rewrite (U d c J). cbn. destruct (Z.eqb_spec c' c) as [-> |]; [contradiction|reflexivity].
  - intros c NE. rewrite taken_app in NE. destruct (taken c v) as [|q l] eqn:E.
    + destruct x as [c'|c' d' y|c' r|c' r|c']; try (cbn in NE; congruence). cbn in NE. destruct (Z.eqb_spec c' c) as [-> |]; [|cbn in NE; congruence]. destruct (TE [] c r ev eq_refl) as (q & I). rewrite app_nil_r in I. exists q. apply in_app_iff. left. exact I.
    + assert (NE' : taken c v <> []) by congruence. destruct (T c NE') as (r & I). exists r. apply in_app_iff. left. exact I.
  - intros a c r b E. destruct (TE (x :: a) c r b) as (q & I); [rewrite E; reflexivity|]. exists q. rewrite <- app_assoc. exact I.
Qed.
Lemma inv_taken_arrived o v s c r : inv o v s -> In (Took c r) v -> In (Arrived c r) v.
Proof.
  intros I J. destruct (i_device _ _ _ I c) as (S0 & _). apply arrived_in. apply (sub_in _ _ r S0). apply in_app_iff. left. apply taken_in. exact J.
Qed.
Lemma inv_taken_some o v s c : inv o v s -> taken c v <> [] -> exists r, In (Arrived c r) v.
Proof. intros I N. destruct (taken c v) as [|r q] eqn:E; [congruence|]. exists r. apply (inv_taken_arrived o v s c r I). apply taken_in. rewrite E. left. reflexivity. Qed.
Lemma step_took e i s s' out ev o v : inv o v s -> xstep e i s = (s', out, ev) -> forall a c r b, ev = a ++ Took c r :: b -> b = [] /\ exists q, In (Arrived c q) (v ++ a).
Proof.
  intros I H a c r b E. pose proof (step_inv e i s s' out ev o v I H) as I2.
  assert (B : b = []).
  { assert (G : (exists p, ev = p /\ forall a c r b, p <> a ++ Took c r :: b) \/ exists p c' r', ev = p ++ [Took c' r'] /\ forall a c r b, p <> a ++ Took c r :: b).
    { assert (QE : forall p, (forall x, In x p -> match x with Took _ _ => False | _ => True end) -> forall a c r b, p <> a ++ Took c r :: b).
      { intros p Q a0 c0 r0 b0 ->. exact (Q (Took c0 r0) ltac:(apply in_app_iff; right; left; reflexivity)). }
      assert (QA : forall nt nr l s s' out ev, acall e nt nr l s = (s', out, ev) -> forall x, In x ev -> match x with Took _ _ => False | _ => True end).
      { intros nt nr l s0 s1 o1 ev1 AC x J. apply acall_events in AC. destruct AC as ([-> | [-> | (d & y & -> & _)]] & _); cbn in J; [tauto|destruct J as [<- | []]; exact Logic.I|destruct J as [<- | [<- | []]]; exact Logic.I]. }
      assert (QM : forall arr x, In x (map (fun x : Z * reply => Arrived (fst x) (snd x)) arr) -> match x with Took _ _ => False | _ => True end) by (intros arr x J; apply in_map_iff in J; destruct J as (y & <- & _); exact Logic.I).
      destruct i as [nt nr l|d any nb sg|d|nt l arr|c' r'|i]; cbn [xstep] in H.
      - left. exists ev. split; [reflexivity|]. apply QE. exact (QA _ _ _ _ _ _ _ H).
      - rewrite getrply_plain in H. destruct (get_reply e d any nb sg s) as [[s1 o1] ev1] eqn:G. injection H as _ _ <-. apply get_reply_events in G. destruct G as [-> | (c' & r' & ->)].
        + left. exists []. split; [reflexivity|]. apply QE. cbn. tauto.
        + right. exists [], c', r'. split; [reflexivity|]. apply QE. cbn. tauto.
      - left. exists ev. split; [reflexivity|]. apply QE. unfold cancel in H. destruct (get d (p_descs s)); [|injection H as _ _ <-; cbn; tauto]. destruct (associated _ _); injection H as _ _ <-; cbn; [tauto|]. intros x [<- | []]; exact Logic.I.
      - apply tpcall_split in H. destruct H as [(-> & _) | [(t1 & s2 & ev2 & AC & _ & ->) | (t1 & s2 & d & ev2 & s4 & ev4 & AC & G & ->)]].
        + left. exists []. split; [reflexivity|]. apply QE. cbn. tauto.
        + left. exists ev2. split; [reflexivity|]. apply QE. exact (QA _ _ _ _ _ _ _ AC).
        + apply get_reply_events in G. assert (QX : forall x, In x (ev2 ++ map (fun x : Z * reply => Arrived (fst x) (snd x)) arr) -> match x with Took _ _ => False | _ => True end) by (intros x J; apply in_app_iff in J; destruct J as [J | J]; [exact (QA _ _ _ _ _ _ _ AC x J)|exact (QM arr x J)]).
          destruct G as [-> | (c' & r' & ->)]; [left; exists (ev2 ++ map (fun x => Arrived (fst x) (snd x)) arr)|right; exists (ev2 ++ map (fun x => Arrived (fst x) (snd x)) arr), c', r'].
          * rewrite app_nil_r. split; [reflexivity|]. apply QE. exact QX.
          * rewrite app_assoc. split; [reflexivity|]. apply QE. exact QX.
      - injection H as _ _ <-. left. eexists. split; [reflexivity|]. apply QE. intros x [<- | []]; exact Logic.I.
      - left. exists ev. split; [reflexivity|]. apply QE.
        destruct i; cbn [xstep] in H;
          try (match type of H with (let '(_, _) := ?X in _) = _ => destruct X as [tt rr] end; injection H as _ _ <-; intros ? []); try (injection H as _ _ <-; intros ? []).
        destruct (step e _ _) as [t r0]. injection H as _ _ <-. intros w J. apply in_map_iff in J. destruct J as (y & <- & _). exact Logic.I. }
    destruct G as [(p & -> & NP) | (p & c' & r' & -> & NP)]; [exfalso; exact (NP a c r b E)|]. apply snoc_split in E. destruct E as [(-> & _) | (b' & -> & E)]; [reflexivity|]. exfalso. exact (NP a c r b' E). }
  split; [exact B|]. subst b. assert (J : In (Took c r) (v ++ ev)) by (rewrite E; apply in_app_iff; right; apply in_app_iff; right; left; reflexivity).
  apply (inv_taken_arrived _ _ _ c r I2) in J. exists r. rewrite E in J. rewrite app_assoc in J. apply in_app_iff in J. destruct J as [J | [J | []]]; [exact J|discriminate].
Qed.
Lemma untaken_step e i s s' out ev o v : inv o v s -> hist o v s -> NoDup (reqs (v ++ ev)) -> causal (v ++ ev) -> untaken o v -> xstep e i s = (s', out, ev) -> untaken (after_entry o (i, out, ev)) (v ++ ev).
Proof.
  intros V I N C U H. assert (U2 : untaken (fold_left after_event ev o) (v ++ ev)).
  { apply untaken_events; auto; [intros c NE; exact (inv_taken_some o v s c V NE)|]. intros a c r b E. exact (proj2 (step_took e i s s' out ev o v V H a c r b E)). }
  cbn [after_entry]. destruct i; try exact U2. destruct out; try exact U2. intros d' c' J. apply filter_In in J. exact (U2 d' c' (proj1 J)).
Qed.
Lemma run_untaken e is : forall s s' h o v, inv o v s -> hist o v s -> NoDup (reqs (v ++ events h)) -> causal (v ++ events h) -> untaken o v -> xrun e is s = (s', h) -> untaken (fold_left after_entry h o) (v ++ events h).
Proof.
  induction is as [|i is IH]; intros s s' h o v V I N C U H; cbn in H.
  - injection H as <- <-. cbn. rewrite app_nil_r. exact U.
  - destruct (xstep e i s) as [[s1 out] ev] eqn:ST. destruct (xrun e is s1) as [s2 h2] eqn:R. injection H as <- <-. cbn [events flat_map snd] in *. change (flat_map (fun n => snd n) h2) with (events h2) in *. rewrite app_assoc in *. cbn [fold_left].
    apply (IH s1 s2 h2); auto; [exact (step_inv e i s s1 out ev o v V ST)|exact (hist_step e i s s1 out ev o v V I ST)|].
    apply (untaken_step e i s s1); auto; [|exact (causal_app _ _ C)]. rewrite reqs_app in N. clear -N. induction (reqs (v ++ ev)) as [|a l IH]; [constructor|]. inversion_clear N as [|? ? NI N']. constructor; [|auto]. intros J. apply NI. apply in_app_iff. left. exact J.
Qed.
Lemma reach_untaken e dyn fix0 is s h d c : xrun e is (CallModel.start dyn fix0) = (s, h) -> causal (events h) -> In (d, c) (outstanding h) -> taken c (events h) = [].
Proof.
  intros R C J. refine (run_untaken e is _ _ _ [] [] (inv_start dyn fix0) (hist_start dyn fix0) _ C _ R d c J); [exact (reach_reqs _ _ _ _ _ _ R)|intros d0 c0 []].
Qed.

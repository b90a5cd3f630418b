(* The queue manager: answers, and the invariant of the lookups. *)
From Coq Require Import ZArith List Bool Lia Permutation Sorting.Sorted.
From Verif Require Import QmgModel QmgSpec QmgProofs QmgEnt QmgQueues QmgOffers QmgLook.
Import ListNotations.
Local Open Scope Z_scope.

Definition chosen (l : look) (s : state) : option inst := if match l_req l with External => true | _ => false end then local_queue (l_name l) (l_act l) s else queue (l_name l) (l_act l) s.
Lemma same_queue n a s s' : s_queues s' = s_queues s -> queue n a s' = queue n a s.
Proof. unfold queue. now intros ->. Qed.
Lemma same_local n a s s' : s_queues s' = s_queues s -> local_queue n a s' = local_queue n a s.
Proof. unfold local_queue. now intros ->. Qed.
Lemma chosen_same l s s' : s_queues s' = s_queues s -> chosen l s' = chosen l s.
Proof. intro E. unfold chosen. now rewrite (same_queue _ _ _ _ E), (same_local _ _ _ _ E). Qed.
Lemma chosen_not l s : l_req l <> External -> chosen l s = queue (l_name l) (l_act l) s.
Proof. unfold chosen. destruct (l_req l); intuition congruence. Qed.
(* what an answer is *)
Lemma step_answers i s p k n a : (forall l, In l (s_lookups s) -> l_req l <> External) -> In (Answer p k n a) (snd (step i s)) ->
  exists l, (In l (s_lookups s) \/ i = Lookup l) /\ p = l_ipc l /\ k = l_corr l /\ n = l_name l /\ gone p s = false
    /\ match a with
       | Some x => chosen l (fst (step i s)) = Some x
       | None => is_down (fst (step i s)) = true \/ (chosen l (fst (step i s)) = None /\ l_wait l = false /\ (i = Lookup l /\ l_req l <> Internal \/ i = Discovered k))
       end.
Proof.
  intros NX J. destruct (step_queues i s) as [EQ _]. destruct (special i) eqn:S.
  - destruct i as [m|l'|p' k'|pid ipc n' add rem|ipc n'|ipc|k'|p' k'|p' k' int names|f pid ipc|f pid qs|pid|pid|ipc|p' k' m| | |ipc]; try discriminate.
    + cbn [step] in *. exists l'. destruct (lookup_cases l' s) as [(E & V & W)|[(x & E & V & D & W)|(E & _ & _ & [(_ & V)|(_ & _ & V)])]]; rewrite V in J.
      * apply absent_in in J as [G J]. injection J as -> -> -> ->. repeat (split; [solve [auto]|]). rewrite E. destruct W as [W|(W1 & W2 & W3)]; [auto|]. right. split; [exact W3|]. split; auto.
      * unfold send in J. destruct (gone (l_ipc l') s) eqn:G; [destruct J|]. destruct J as [J|[]]. injection J as <- <- <- <-. repeat (split; [solve [auto]|]). rewrite E. exact W.
      * destruct J as [J|[]]. discriminate. * destruct J.
    + cbn [step] in J. unfold discard_lookup, send in J. destruct (existsb _ _); cbn in J; destruct (gone p' s); destruct J as [J|[]] || destruct J; discriminate.
    + rewrite step_discovered in J. rewrite bind_snd in J. apply in_app_iff in J as [J|J].
      * apply check_answers in J as (l & x & I & E & J). injection J as -> -> -> ->. exists l. unfold replied in E. destruct (gone (l_ipc l) s) eqn:G; [discriminate|]. repeat (split; [solve [auto]|]). rewrite (chosen_same l s); auto. rewrite chosen_not; auto.
      * assert (Q' : s_queues (fst (step (Discovered k') s)) = s_queues s) by exact EQ. destruct (discovered_split k' (fst (check s))) as [(l & I & E & W & X)|[_ X]]; rewrite X in J; cbn [snd] in J; [|destruct J]. apply absent_in in J as [G J]. injection J as -> -> -> ->.
        apply check_lookups in I as [I Rp]. exists l. change (gone (l_ipc l) (fst (check s))) with (gone (l_ipc l) s) in G. repeat (split; [solve [auto]|]). right. rewrite (chosen_same l s) by exact Q'. rewrite chosen_not by auto. unfold replied in Rp. rewrite G in Rp. split; [auto|]. split; [auto|]. right. now rewrite E.
    + destruct J as [J|[]]. discriminate.
    + cbn [step] in J. rewrite bind_snd in J. cbn [snd] in J. rewrite app_nil_r in J. destruct (coordinate_rest (MDead pid) s) as [_ P]. apply P in J. discriminate.
    + destruct (shutdown_lookups s) as (_ & ev0 & V & Q). rewrite V in J. apply in_app_iff in J as [J|J]; [|destruct (Q _ J) as [Q1 _]; exfalso; eapply Q1; eauto]. apply in_flat_map in J as (l & I & J). apply absent_in in J as [G J]. injection J as -> -> -> ->.
      exists l. repeat (split; [solve [auto]|]). left. cbn [step]. rewrite bind_fst. unfold conform, is_down. match goal with |- context [then_all ?t ?x] => destruct (then_all_rest t x) as [(-> & _) _] end. reflexivity.
  - destruct (is_check i) eqn:C.
    + destruct (kind_check i s C) as (s2 & ev0 & EL & ELo & Q & E & V). rewrite V in J. apply in_app_iff in J as [J|J]; [destruct (Q _ J) as [Q1 _]; exfalso; eapply Q1; eauto|]. apply check_answers in J as (l & x & I & R & J). injection J as -> -> -> ->. rewrite EL in I. exists l.
      unfold replied, gone in R. rewrite ELo in R. fold (gone (l_ipc l) s) in R. destruct (gone (l_ipc l) s) eqn:G; [discriminate|]. repeat (split; [solve [auto]|]). rewrite E, (chosen_same l s2) by reflexivity. rewrite chosen_not; auto.
    + destruct (kind_same i s S C) as (_ & Q & _). destruct (Q _ J) as [Q1 _]. exfalso. eapply Q1; eauto.
Qed.
Lemma step_discarded i s p k : In (Discarded p k true) (snd (step i s)) -> i = DiscardLookup p k /\ exists l, In l (s_lookups s) /\ l_corr l = k.
Proof.
  intro J. destruct (special i) eqn:S.
  - destruct i as [m|l'|p' k'|pid ipc n' add rem|ipc n'|ipc|k'|p' k'|p' k' int names|f pid ipc|f pid qs|pid|pid|ipc|p' k' m| | |ipc]; try discriminate.
    + cbn [step] in J. destruct (lookup_cases l' s) as [(E & V & W)|[(x & E & V & D & W)|(E & _ & _ & [(_ & V)|(_ & _ & V)])]]; rewrite V in J.
      * apply absent_in in J as [_ J]. discriminate. * unfold send in J. destruct (gone _ _); destruct J as [J|[]] || destruct J. discriminate. * destruct J as [J|[]]. discriminate. * destruct J.
    + cbn [step] in J. unfold discard_lookup, send in J. destruct (existsb _ _) eqn:X; cbn in J; destruct (gone p' s); destruct J as [J|[]] || destruct J; try discriminate. injection J as -> ->. split; [auto|]. apply existsb_exists in X as (l & I & E). apply Z.eqb_eq in E. eauto.
    + rewrite step_discovered, bind_snd in J. apply in_app_iff in J as [J|J]; [apply check_answers in J as (l & x & _ & _ & J); discriminate|]. destruct (discovered_split k' (fst (check s))) as [(l & I & E & W & X)|[_ X]]; rewrite X in J; cbn [snd] in J; [|destruct J]. apply absent_in in J as [_ J]. discriminate.
    + destruct J as [J|[]]. discriminate.
    + cbn [step] in J. rewrite bind_snd in J. cbn [snd] in J. rewrite app_nil_r in J. destruct (coordinate_rest (MDead pid) s) as [_ P]. apply P in J. discriminate.
    + destruct (shutdown_lookups s) as (_ & ev0 & V & Q). rewrite V in J. apply in_app_iff in J as [J|J]; [|destruct (Q _ J) as [_ Q1]; exfalso; eapply Q1; eauto]. apply in_flat_map in J as (l & I & J). apply absent_in in J as [G J]. discriminate.
  - destruct (is_check i) eqn:C.
    + destruct (kind_check i s C) as (s2 & ev0 & EL & ELo & Q & E & V). rewrite V in J. apply in_app_iff in J as [J|J]; [destruct (Q _ J) as [_ Q1]; exfalso; eapply Q1; eauto|]. apply check_answers in J as (l & x & I & R & J). discriminate.
    + destruct (kind_same i s S C) as (_ & Q & _). destruct (Q _ J) as [_ Q1]. exfalso. eapply Q1; eauto.
Qed.
Lemma fewer_none n a s s' : (forall x, In x (s_queues s') -> In x (s_queues s)) -> queue n a s = None -> queue n a s' = None.
Proof. rewrite !queue_none. auto. Qed.
Definition is_lost (i : input) : bool := match i with Lost _ => true | _ => false end.
Lemma step_lost i s : s_lost (fst (step i s)) = match i with Lost ipc => ipc :: s_lost s | _ => s_lost s end.
Proof.
  destruct i as [m|l|p k|pid ipc n add rem|ipc n|ipc|k|p k|p k int names|f pid ipc|f pid qs|pid|pid|ipc|p k m| | |ipc]; cbn [step].
  - destruct (then_all_rest (tasks_of (Model [] []) m) s) as [(A & B & C & D & E) _]. auto.
  - destruct (lookup_same l s) as (_ & _ & _ & ->). auto.
  - unfold discard_lookup. destruct (existsb _ _); auto.
  - destruct (kind_check (Advertise pid ipc n add rem) s eq_refl) as (s2 & ev0 & _ & E & _ & E2 & _). cbn [step] in E2. rewrite E2. exact E.
  - destruct (kind_check (Order ipc n) s eq_refl) as (s2 & ev0 & _ & E & _ & E2 & _). cbn [step] in E2. rewrite E2. exact E.
  - auto.
  - rewrite bind_fst. destruct (find _ _) as [l|]; [destruct (l_wait l)|]; auto.
  - auto.
  - auto.
  - rewrite bind_fst. destruct (connect_rest f pid ipc (fst (coordinate (MConnect f pid) s))) as (_ & _ & _ & _ & ->). destruct (coordinate_rest (MConnect f pid) s) as [(_ & _ & _ & _ & ->) _]. auto.
  - destruct f.
    + rewrite bind_fst. cbn. destruct (coordinate_rest (MConfigured true pid) s) as [(_ & _ & _ & _ & E) _]. auto.
    + destruct (kind_check (Configured false pid qs) s eq_refl) as (s2 & ev0 & _ & E & _ & E2 & _). cbn [step] in E2. rewrite E2. exact E.
  - auto.
  - rewrite bind_fst. cbn. destruct (coordinate_rest (MDead pid) s) as [(_ & _ & _ & _ & ->) _]. auto.
  - auto.
  - rewrite bind_fst; unfold conform. destruct (andthen_rest (TTell p k) (fst (then_all (tasks_of (current s) m) s))) as [(_ & _ & _ & _ & ->) _]. destruct (then_all_rest (tasks_of (current s) m) s) as [(_ & _ & _ & _ & ->) _]. auto.
  - rewrite bind_fst. unfold conform. match goal with |- s_lost (fst (then_all ?t ?x)) = _ => destruct (then_all_rest t x) as [(_ & _ & _ & _ & ->) _] end. auto.
  - destruct (s_run s); auto. destruct (ready s); auto.
  - auto.
Qed.
Lemma step_down i s : is_down (fst (step i s)) = match i with Shutdown => true | _ => is_down s end.
Proof.
  unfold is_down. destruct i as [m|l|p k|pid ipc n add rem|ipc n|ipc|k|p k|p k int names|f pid ipc|f pid qs|pid|pid|ipc|p k m| | |ipc]; cbn [step].
  - destruct (then_all_rest (tasks_of (Model [] []) m) s) as [(A & B & C & D & E) _]. unfold conform. now rewrite A.
  - destruct (lookup_same l s) as (_ & _ & -> & _). auto.
  - unfold discard_lookup. destruct (existsb _ _); auto.
  - cbn. unfold advertise. assert (A : forall l t, s_run (fold_left (add_remote pid ipc n) l t) = s_run t) by (induction l; intro t; cbn; auto; now rewrite IHl). assert (B : forall l t, s_run (fold_left (remove_remote ipc) l t) = s_run t) by (induction l; intro t; cbn; auto; now rewrite IHl). rewrite B, A. destruct (existsb _ _); auto.
  - cbn. unfold order_of. destruct (existsb _ _); auto.
  - auto.
  - rewrite bind_fst. destruct (find _ _) as [l|]; [destruct (l_wait l)|]; auto.
  - auto.
  - auto.
  - rewrite bind_fst. destruct (connect_rest f pid ipc (fst (coordinate (MConnect f pid) s))) as (-> & _). destruct (coordinate_rest (MConnect f pid) s) as [(-> & _) _]. auto.
  - destruct f.
    + rewrite bind_fst. cbn. destruct (coordinate_rest (MConfigured true pid) s) as [(-> & _) _]. auto.
    + rewrite bind_fst. cbn. destruct (update_group_rest pid qs (fst (coordinate (MConfigured false pid) s))) as (_ & -> & _). destruct (coordinate_rest (MConfigured false pid) s) as [(-> & _) _]. auto.
  - auto.
  - rewrite bind_fst. cbn. destruct (coordinate_rest (MDead pid) s) as [(-> & _) _]. auto.
  - auto.
  - rewrite bind_fst; unfold conform. destruct (andthen_rest (TTell p k) (fst (then_all (tasks_of (current s) m) s))) as [(-> & _) _]. destruct (then_all_rest (tasks_of (current s) m) s) as [(-> & _) _]. auto.
  - rewrite bind_fst. unfold conform. match goal with |- context [then_all ?t ?x] => destruct (then_all_rest t x) as [(-> & _) _] end. auto.
  - destruct (s_run s) eqn:R; [destruct (ready s)| |]; cbn; rewrite ?R; auto.
  - auto.
Qed.
Lemma gone_step i s p : gone p s = true -> gone p (fst (step i s)) = true.
Proof. unfold gone. rewrite step_lost. destruct i; auto. cbn. intros ->. apply orb_true_r. Qed.
Lemma gone_back i s p : is_lost i = false -> gone p (fst (step i s)) = gone p s.
Proof. unfold gone. rewrite step_lost. destruct i; auto. discriminate. Qed.
(* nobody has what is offered waiting *)
Lemma shrink i s : is_check i = false -> forall x, In x (s_queues (fst (step i s))) -> In x (s_queues s).
Proof.
  intros C x. destruct (step_queues i s) as [-> _]. destruct i as [m|l'|p' k'|pid ipc n' add rem|ipc n'|ipc|k'|p' k'|p' k' int names|f pid ipc|[] pid qs|pid|pid|ipc|p' k' m| | |ipc]; try discriminate; cbn; auto; intro J; apply filter_In in J; tauto.
Qed.
Lemma step_none i s : (forall k, (pend k s <= 1)%nat) -> (forall l, In l (s_lookups s) -> gone (l_ipc l) s = false -> queue (l_name l) (l_act l) s = None) -> (forall l, i = Lookup l -> l_req l = External -> l_wait l = false) ->
  forall l, In l (s_lookups (fst (step i s))) -> gone (l_ipc l) (fst (step i s)) = false -> queue (l_name l) (l_act l) (fst (step i s)) = None.
Proof.
  intros P H X l J G. assert (G0 : gone (l_ipc l) s = false). { destruct (gone (l_ipc l) s) eqn:G0; auto. apply (gone_step i) in G0. congruence. }
  destruct (is_check i) eqn:C.
  - destruct (kind_check i s C) as (s2 & ev0 & EL & ELo & Q & E & V). rewrite E in *. apply check_lookups in J as [J Rp]. unfold replied in Rp. change (gone (l_ipc l) (fst (check s2))) with (gone (l_ipc l) s2) in G. now rewrite G in Rp.
  - pose proof (shrink i s C) as SH. destruct (step_from i s l (P _) J) as [[I|I] _]; [eapply fewer_none; [exact SH|auto]|]. subst i. specialize (X l eq_refl). cbn [step] in J.
    destruct (lookup_cases l s) as [(E & _)|[(x & E & _)|(E & D & Q & T)]]; [rewrite E in J; eapply fewer_none; [exact SH|auto]|rewrite E in J; eapply fewer_none; [exact SH|auto]|].
    fold (chosen l s) in Q. rewrite chosen_not in Q; [eapply fewer_none; eauto|]. intro R. specialize (X R). destruct T as [(T & _)|(_ & T & _)]; congruence.
Qed.
Record linv (s : state) (h : history) : Prop := {
  v_in : forall l, In l (s_lookups s) -> waiting l h;
  v_req : forall l, In l (s_lookups s) -> l_req l <> External /\ (l_wait l = false -> l_req l = Internal);
  v_wait : forall l, waiting l h -> ~ lost (l_ipc l) h -> In l (s_lookups s);
  v_gone : forall p, gone p s = true <-> lost p h;
  v_down : is_down s = true <-> down h;
  v_empty : is_down s = true -> s_lookups s = [];
  v_count : forall k, (ans k (effects h) + pend k s <= 1)%nat;
  v_new : forall k, (forall l, In (Lookup l) (inputs h) -> l_corr l <> k) -> (ans k (effects h) + pend k s = 0)%nat;
  v_none : forall l, In l (s_lookups s) -> gone (l_ipc l) s = false -> queue (l_name l) (l_act l) s = None;
  v_disc : forall p k, In (Discarded p k true) (effects h) -> (ans k (effects h) + pend k s = 0)%nat /\ exists l, In (Lookup l) (inputs h) /\ l_corr l = k }.
Lemma waiting_inv l h i ev : waiting l (h ++ [(i, ev)]) -> (i = Lookup l /\ existsb (is_answer (l_corr l)) ev = false) \/ (waiting l h /\ ends_wait l i ev = false).
Proof. intro H. remember (h ++ [(i, ev)]) as g eqn:G. destruct H as [h' ev' A|h' i' ev' A B]; apply snoc_inj in G as [-> G]; injection G as <- <-; auto. Qed.
Lemma waiting_lookup l h : waiting l h -> In (Lookup l) (inputs h).
Proof. induction 1; rewrite inputs_snoc; apply in_snoc; auto. Qed.
Lemma ends_split l i ev : ends_wait l i ev = false <-> ans (l_corr l) ev = 0%nat /\ ended i l = false.
Proof. unfold ends_wait, ended, ans. rewrite orb_false_iff, count_existsb. reflexivity. Qed.
Lemma corr_pend l s : In l (s_lookups s) -> (1 <= pend (l_corr l) s)%nat.
Proof. intro I. assert (0 < pend (l_corr l) s)%nat; [|lia]. apply count_pos. exists l. split; auto. unfold corr. apply Z.eqb_refl. Qed.
Lemma pend_corr k s : (0 < pend k s)%nat -> exists l, In l (s_lookups s) /\ l_corr l = k.
Proof. intro I. apply count_pos in I as (l & I & E). apply Z.eqb_eq in E. eauto. Qed.
Lemma ans_app k a b : ans k (a ++ b) = (ans k a + ans k b)%nat.
Proof. apply count_app. Qed.
Lemma reach_linv s h : reach s h -> linv s h.
Proof.
  induction 1 as [|s h i R IH Po].
  - split; cbn; try tauto; auto; try discriminate. + intros l W. remember [] as g eqn:G. destruct W; now apply app_eq_nil in G as [_ G]. + intro p. split; [discriminate|]. intros []. + split; [discriminate|]. intros [].
  - pose proof IH as [A B C D E F G H I K]. pose proof (fun k => step_count i s k) as SC. set (ev := snd (step i s)) in *. set (s' := fst (step i s)) in *.
    assert (PEND : forall k, (pend k s <= 1)%nat) by (intro k; specialize (G k); lia).
    assert (FRESH : forall k, (ans k (effects h) + pend k s + newl i k <= 1)%nat).
    { intro k. specialize (G k). destruct i; cbn [newl]; try lia. destruct (_ =? _) eqn:X; [|lia]. apply Z.eqb_eq in X. cbn in Po. destruct Po as (_ & Po & _). rewrite H; [lia|]. intros l' I'. rewrite <- X. auto. }
    assert (IN : forall l, In l (s_lookups s') -> (In l (s_lookups s) \/ i = Lookup l) /\ ended i l = false /\ ans (l_corr l) ev = 0%nat).
    { intros l J. destruct (step_from i s l (PEND _) J) as [J1 J2]. split; [auto|]. split; [auto|]. pose proof (corr_pend l s' J). specialize (SC (l_corr l)). specialize (FRESH (l_corr l)). lia. }
    assert (ND : is_down s = true -> forall l, i = Lookup l -> s' = s). { intros X l ->. unfold s'. cbn [step]. unfold lookup. rewrite X. reflexivity. }
    assert (XW : forall l, i = Lookup l -> l_req l = External -> l_wait l = false) by (intros l ->; cbn in Po; tauto).
    assert (MONO : forall k, (ans k (effects h) + pend k s = 0)%nat -> newl i k = 0%nat -> (ans k (effects h ++ ev) + pend k s' = 0)%nat) by (intros k X Y; rewrite ans_app; specialize (SC k); lia).
    split.
    + intros l J. destruct (IN l J) as ([J'|J'] & N & V).
      * apply waiting_since; [auto|]. apply ends_split. auto. * subst i. apply waiting_now. now apply count_existsb.
    + intros l J. destruct (IN l J) as ([J'|J'] & N & V); [auto|]. subst i. unfold s' in J. cbn [step] in J. specialize (XW l eq_refl).
      destruct (lookup_cases l s) as [(X & _)|[(x & X & _)|(X & Y & Q & T)]]; [rewrite X in J; auto|rewrite X in J; auto|]. destruct T as [(T & _)|(T & T' & _)]; [rewrite T; split; [discriminate|auto]|]. split; [intro Z; rewrite XW in T'; [discriminate|auto]|congruence].
    + intros l W L. apply waiting_inv in W. assert (L' : ~ lost (l_ipc l) h) by (intro X; apply L; unfold lost; rewrite inputs_snoc, in_snoc; auto). assert (GO : gone (l_ipc l) s = false). { destruct (gone _ s) eqn:X; auto. apply D in X. contradiction. }
      apply step_stays; auto.
      * destruct W as [[-> _]|[W _]]; [now right|left; auto].
      * destruct W as [[_ W]|[_ W]]; [now apply count_existsb|apply ends_split in W; tauto].
      * destruct W as [[-> W]|[_ W]]; [reflexivity|apply ends_split in W; tauto].
    + intro p. unfold gone, lost, s'. rewrite step_lost, inputs_snoc, in_snoc. unfold gone, lost in D. destruct i; rewrite ?D; try (split; [auto|intros [X|X]; [auto|discriminate]]). cbn [existsb]. rewrite orb_true_iff, D, Z.eqb_eq. split; intros [X|X]; auto; [right; congruence|left; congruence].
    + unfold down, s'. rewrite step_down, inputs_snoc, in_snoc. unfold down in E. destruct i; rewrite ?E; try (split; [auto|intros [X|X]; [auto|discriminate]]). split; auto.
    + intro X. unfold s' in X. rewrite step_down in X. enough (forall l, ~ In l (s_lookups s')) as Y by (destruct (s_lookups s') as [|l r]; [auto|exfalso; apply (Y l); now left]). intros l J. destruct i; try (destruct (IN l J) as ([J'|J'] & _); [rewrite F in J' by auto; destruct J'|discriminate]).
      * rewrite (ND X _ eq_refl), F in J by auto. destruct J.
      * unfold s' in J. destruct (shutdown_lookups s) as [Z _]. rewrite Z in J. destruct J.
    + intro k. rewrite effects_snoc, ans_app. specialize (SC k). specialize (FRESH k). fold ev. lia.
    + intros k N. rewrite effects_snoc. apply MONO; [apply H; intros l J; apply N; rewrite inputs_snoc; apply in_snoc; auto|]. destruct i; auto. cbn. destruct (_ =? _) eqn:X; auto. apply Z.eqb_eq in X. exfalso. eapply N; [rewrite inputs_snoc; apply in_snoc; right; reflexivity|auto].
    + apply step_none; auto.
    + intros p k J. rewrite effects_snoc in *. rewrite inputs_snoc. apply in_app_iff in J as [J|J].
      * destruct (K p k J) as (K1 & l & K2 & K3). split; [|exists l; split; [apply in_snoc; auto|auto]]. apply MONO; auto. destruct i; auto. cbn. destruct (_ =? _) eqn:X; auto. apply Z.eqb_eq in X. cbn in Po. destruct Po as (_ & Po & _). exfalso. apply (Po l K2). congruence.
      * destruct (step_discarded i s p k J) as (-> & l & J1 & J2). pose proof (waiting_lookup l h (A l J1)) as J3. split; [|exists l; split; [apply in_snoc; auto|auto]]. rewrite ans_app. specialize (SC k). specialize (G k). cbn [newl] in SC.
        assert (1 <= pend k s)%nat by (rewrite <- J2; now apply corr_pend). destruct (Nat.eq_dec (ans k ev + pend k s') 0) as [Z|Z]; [lia|]. exfalso. destruct (Nat.eq_dec (ans k ev) 0) as [Z'|Z'].
        -- assert (0 < pend k s')%nat as Z2 by lia. apply pend_corr in Z2 as (l' & Z2 & Z3). destruct (IN l' Z2) as (_ & N & _). cbn in N. rewrite Z3, Z.eqb_refl in N. discriminate.
        -- unfold ev in Z'. cbn [step] in Z'. unfold discard_lookup in Z'. apply Z'. destruct (existsb _ _); cbn [snd]; pose proof (send_ans p (Discarded p k true) s k) as X1; pose proof (send_ans p (Discarded p k false) s k) as X2; cbn [is_answer] in X1, X2; lia.
Qed.

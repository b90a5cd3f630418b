(* The queue manager: what is claimed of the lookups and of the discovery. *)
From Coq Require Import ZArith List Bool Lia Permutation Sorting.Sorted.
From Verif Require Import QmgModel QmgSpec QmgProofs QmgEnt QmgQueues QmgOffers QmgLook QmgLook2.
Import ListNotations.
Local Open Scope Z_scope.

Lemma reach_inv s h i ev : reach s (h ++ [(i, ev)]) -> exists s0, reach s0 h /\ possible h i /\ s = fst (step i s0) /\ ev = snd (step i s0).
Proof. intro R. remember (h ++ [(i, ev)]) as g eqn:G. destruct R as [|s0 h0 i0 R P]; [symmetry in G; now apply app_eq_nil in G as [_ G]|]. apply snoc_inj in G as [-> G]. injection G as <- <-. exists s0. auto. Qed.
Lemma chosen_fits l s x : chosen l s = Some x -> In x (s_queues s) /\ fits l x.
Proof.
  unfold chosen, fits. destruct (l_req l); intro H.
  - apply queue_in in H as (A & B & C). split; [auto|]. split; [auto|]. split; [auto|discriminate].
  - apply local_queue_in in H as (A & B & C & D). auto 6.
  - apply queue_in in H as (A & B & C). split; [auto|]. split; [auto|]. split; [auto|discriminate].
Qed.
Lemma chosen_least l s x : StronglySorted before (s_queues s) -> chosen l s = Some x -> forall y, In y (s_queues s) -> fits l y -> (i_order x <= i_order y)%nat.
Proof.
  intros So H y I (N & E & L). change domestic with local in *. change usable with enabled in *. unfold chosen in H. destruct (l_req l); [apply (find_least _ _ _ So H)| |apply (find_least _ _ _ So H)]; auto; try (rewrite N, Z.eqb_refl; exact E).
  apply (find_least _ _ _ So H); auto. rewrite N, Z.eqb_refl, E, L; auto.
Qed.
Lemma chosen_none l s : chosen l s = None -> forall y, In y (s_queues s) -> ~ fits l y.
Proof.
  unfold chosen. intros H y I (N & E & L). change domestic with local in *. change usable with enabled in *. destruct (l_req l) eqn:R.
  - rewrite queue_none in H. rewrite (H y I N) in E. discriminate.
  - rewrite local_queue_none in H. rewrite (H y I N E) in L. specialize (L eq_refl). discriminate.
  - rewrite queue_none in H. rewrite (H y I N) in E. discriminate.
Qed.
Lemma like_fits l y x : like y x -> fits l x -> fits l y.
Proof. unfold fits. change domestic with local. change usable with enabled. unfold like, fits. intros (A & B & C & D & E & F & G) (N & X & L). rewrite A, G. split; [auto|]. split; [|auto]. destruct (l_act l); cbn in *; congruence. Qed.
Lemma answer_some s h i ev p k n x : reach s (h ++ [(i, ev)]) -> In (Answer p k n (Some x)) ev ->
  exists l, asker l i h /\ l_ipc l = p /\ l_corr l = k /\ l_name l = n /\ ~ lost p h /\ fits l x /\ (exists y, offers y (h ++ [(i, ev)]) /\ near x y)
    /\ (once (h ++ [(i, ev)]) -> offers x (h ++ [(i, ev)]) /\ forall y, offers y (h ++ [(i, ev)]) -> fits l y -> (i_order x <= i_order y)%nat).
Proof.
  intros R J. pose proof (reach_qinv _ _ R) as Q. destruct (reach_inv _ _ _ _ R) as (s0 & R0 & Po & -> & ->). pose proof (reach_linv _ _ R0) as V.
  destruct (step_answers i s0 p k n (Some x)) as (l & A & -> & -> & -> & G & C); auto; [intros l I; apply (v_req _ _ V l I)|]. destruct (chosen_fits _ _ _ C) as [I F]. exists l.
  split; [destruct A as [A|A]; [left; now apply (v_in _ _ V)|now right]|]. repeat (split; [solve [auto]|]). split; [intro Lo; apply (v_gone _ _ V) in Lo; congruence|]. split; [auto|]. split; [apply (q_real _ _ Q x I)|].
  intro O. destruct (q_once _ _ Q O) as [E _]. split; [now apply E|]. intros y Y. apply E in Y. eapply chosen_least; eauto. apply (q_sorted _ _ Q).
Qed.
Lemma answer_none s h i ev p k n : reach s (h ++ [(i, ev)]) -> In (Answer p k n None) ev ->
  exists l, asker l i h /\ l_ipc l = p /\ l_corr l = k /\ l_name l = n /\ (down (h ++ [(i, ev)]) \/ (l_wait l = false /\ (i = Lookup l /\ l_req l <> Internal \/ i = Discovered k) /\ forall y, offers y (h ++ [(i, ev)]) -> ~ fits l y)).
Proof.
  intros R J. pose proof (reach_qinv _ _ R) as Q. pose proof (reach_linv _ _ R) as V'. destruct (reach_inv _ _ _ _ R) as (s0 & R0 & Po & -> & ->). pose proof (reach_linv _ _ R0) as V.
  destruct (step_answers i s0 p k n None) as (l & A & -> & -> & -> & G & C); auto; [intros l I; apply (v_req _ _ V l I)|]. exists l.
  split; [destruct A as [A|A]; [left; now apply (v_in _ _ V)|now right]|]. repeat (split; [solve [auto]|]). destruct C as [C|(C & W & X)]; [left; now apply (v_down _ _ V')|right]. split; [auto|]. split; [auto|].
  intros y O F. destruct (q_has _ _ Q y O) as (z & I & L). apply (chosen_none _ _ C z I). eapply like_fits; eauto.
Qed.
(* ---- each lookup ---- *)
Lemma one_answer s h k : reach s h -> (count (is_answer k) (effects h) <= 1)%nat.
Proof. intro R. pose proof (v_count _ _ (reach_linv _ _ R) k) as H. unfold ans in H. lia. Qed.
Lemma not_offered s h l x : reach s h -> waiting l h -> ~ lost (l_ipc l) h -> offers x h -> ~ fits l x.
Proof.
  intros R W N O F. pose proof (reach_linv _ _ R) as V. pose proof (reach_qinv _ _ R) as Q. pose proof (v_wait _ _ V l W N) as I. assert (G : gone (l_ipc l) s = false). { destruct (gone _ s) eqn:G; auto. apply (v_gone _ _ V) in G. contradiction. }
  pose proof (v_none _ _ V l I G) as H. destruct (q_has _ _ Q x O) as (y & J & L). apply (like_fits l) in L; auto. destruct L as (A & B & _). rewrite queue_none in H. change usable with enabled in B. rewrite (H y J A) in B. discriminate.
Qed.
Lemma not_when_down s h l : reach s h -> down h -> waiting l h -> lost (l_ipc l) h.
Proof.
  intros R D W. pose proof (reach_linv _ _ R) as V. destruct (gone (l_ipc l) s) eqn:G; [now apply (v_gone _ _ V)|]. exfalso.
  assert (N : ~ lost (l_ipc l) h) by (intro L; apply (v_gone _ _ V) in L; congruence). pose proof (v_wait _ _ V l W N) as I. rewrite (v_empty _ _ V) in I; [destruct I|]. now apply (v_down _ _ V).
Qed.
Lemma direct_done s h ev l : reach s (h ++ [(Discovered (l_corr l), ev)]) -> l_wait l = false -> waiting l h -> ~ lost (l_ipc l) h -> exists a, In (Answer (l_ipc l) (l_corr l) (l_name l) a) ev.
Proof.
  intros R W Wa N. pose proof (reach_linv _ _ R) as V'. destruct (reach_inv _ _ _ _ R) as (s0 & R0 & Po & -> & ->). pose proof (reach_linv _ _ R0) as V. pose proof (v_wait _ _ V l Wa N) as I.
  assert (G : gone (l_ipc l) s0 = false). { destruct (gone _ s0) eqn:G; auto. apply (v_gone _ _ V) in G. contradiction. }
  assert (P : forall k, (pend k s0 <= 1)%nat) by (intro k; pose proof (v_count _ _ V k); lia).
  destruct (replied s0 l) as [x|] eqn:Rp.
  - exists (Some x). rewrite step_discovered, bind_snd. apply in_or_app. left. apply check_answers. exists l, x. auto.
  - assert (C : In l (s_lookups (fst (check s0)))) by (apply check_lookups; auto). rewrite step_discovered, bind_snd. exists None. apply in_or_app. right.
    destruct (discovered_split (l_corr l) (fst (check s0))) as [(l' & I' & E & W' & ->)|[H _]].
    + apply check_lookups in I' as [I' _]. rewrite (pend_one (l_corr l) s0 l' l); auto. apply absent_in. auto.
    + exfalso. rewrite (H l C eq_refl) in W; [discriminate|]. pose proof (check_count s0 (l_corr l)). specialize (P (l_corr l)). lia.
Qed.
Lemma external_now s h ev l : reach s (h ++ [(Lookup l, ev)]) -> l_req l <> Internal -> l_wait l = false -> ~ lost (l_ipc l) h -> exists a, ev = [Answer (l_ipc l) (l_corr l) (l_name l) a].
Proof.
  intros R E W N. destruct (reach_inv _ _ _ _ R) as (s0 & R0 & Po & -> & ->). pose proof (reach_linv _ _ R0) as V. assert (G : gone (l_ipc l) s0 = false). { destruct (gone _ s0) eqn:G; auto. apply (v_gone _ _ V) in G. contradiction. }
  cbn [step]. destruct (lookup_cases l s0) as [(_ & -> & _)|[(x & _ & -> & _)|(_ & _ & _ & [(T & _)|(_ & T & _)])]]; [| |contradiction|congruence].
  - exists None. unfold absent, send. now rewrite G. - exists (Some x). unfold send. now rewrite G.
Qed.
(* a lookup that isn't answered is asked for in the other domains, unless it's on behalf of one *)
Lemma asks_others s h ev l : reach s (h ++ [(Lookup l, ev)]) -> ~ lost (l_ipc l) h ->
  (exists a, ev = [Answer (l_ipc l) (l_corr l) (l_name l) a]) \/ (l_req l = Internal /\ ev = [Discover (l_name l) (l_corr l)]) \/ (l_req l <> Internal /\ l_wait l = true /\ ev = []).
Proof.
  intros R N. destruct (reach_inv _ _ _ _ R) as (s0 & R0 & Po & -> & ->). pose proof (reach_linv _ _ R0) as V. assert (G : gone (l_ipc l) s0 = false). { destruct (gone _ s0) eqn:G; auto. apply (v_gone _ _ V) in G. contradiction. }
  cbn [step]. destruct (lookup_cases l s0) as [(_ & -> & _)|[(x & _ & -> & _)|(_ & _ & _ & T)]]; [| |auto].
  - left. exists None. unfold absent, send. now rewrite G. - left. exists (Some x). unfold send. now rewrite G.
Qed.
(* what is offered is told of at once *)
Lemma offered_now s h ev l x : reach s (h ++ [(Lookup l, ev)]) -> ~ lost (l_ipc l) h -> ~ down h -> offers x h -> fits l x -> exists y, ev = [Answer (l_ipc l) (l_corr l) (l_name l) (Some y)].
Proof.
  intros R N D O F. destruct (reach_inv _ _ _ _ R) as (s0 & R0 & Po & -> & ->). pose proof (reach_linv _ _ R0) as V. pose proof (reach_qinv _ _ R0) as Q. assert (G : gone (l_ipc l) s0 = false). { destruct (gone _ s0) eqn:G; auto. apply (v_gone _ _ V) in G. contradiction. }
  assert (DN : is_down s0 = false). { destruct (is_down s0) eqn:X; auto. apply (v_down _ _ V) in X. contradiction. }
  destruct (q_has _ _ Q x O) as (z & I & L). apply (like_fits l) in L; auto. cbn [step]. destruct (lookup_cases l s0) as [(_ & _ & [X|(_ & _ & X)])|[(y & _ & -> & _)|(_ & _ & X & _)]]; [congruence| | |].
  - exfalso. fold (chosen l s0) in X. eapply chosen_none; eauto.
  - exists y. unfold send. now rewrite G.
  - exfalso. fold (chosen l s0) in X. eapply chosen_none; eauto.
Qed.
Lemma discard_reply s h ev p k : reach s (h ++ [(DiscardLookup p k, ev)]) -> ~ lost p h ->
  exists b, ev = [Discarded p k b] /\ if b then exists l, l_corr l = k /\ waiting l h else forall l, l_corr l = k -> waiting l h -> lost (l_ipc l) h.
Proof.
  intros R N. destruct (reach_inv _ _ _ _ R) as (s0 & R0 & Po & -> & ->). pose proof (reach_linv _ _ R0) as V. assert (G : gone p s0 = false). { destruct (gone p s0) eqn:G; auto. apply (v_gone _ _ V) in G. contradiction. }
  cbn [step]. unfold discard_lookup, send. rewrite G. destruct (existsb _ _) eqn:X; cbn [snd]; eexists; (split; [reflexivity|]); cbn.
  - apply existsb_exists in X as (l & I & E). apply Z.eqb_eq in E. exists l. split; [auto|]. now apply (v_in _ _ V).
  - intros l E W. destruct (gone (l_ipc l) s0) eqn:GL; [now apply (v_gone _ _ V)|]. exfalso. assert (NL : ~ lost (l_ipc l) h) by (intro L; apply (v_gone _ _ V) in L; congruence). pose proof (v_wait _ _ V l W NL) as I.
    assert (existsb (fun l => l_corr l =? k) (s_lookups s0) = true); [|congruence]. apply existsb_exists. exists l. split; [auto|]. now apply Z.eqb_eq.
Qed.
Lemma discarded_none s h p k : reach s h -> In (Discarded p k true) (effects h) -> count (is_answer k) (effects h) = 0%nat.
Proof. intros R J. destruct (v_disc _ _ (reach_linv _ _ R) p k J) as [H _]. unfold ans in H. lia. Qed.
(* ---- what is known ---- *)
Lemma get_some internal s n x : get_queue internal s n = Some x -> In x (s_queues s) /\ here internal n x.
Proof. unfold get_queue, here. change domestic with local in *. change usable with enabled in *. destruct internal; intro H; [apply local_queue_in in H as (A & B & _ & D); auto|apply queue_in in H as (A & B & _)]. split; [auto|]. split; [auto|discriminate]. Qed.
Lemma get_none internal s n : get_queue internal s n = None -> forall x, In x (s_queues s) -> ~ here internal n x.
Proof. unfold get_queue, here. change domestic with local in *. change usable with enabled in *. destruct internal; intros H x I [N L]. - rewrite local_queue_none in H. rewrite (H x I N eq_refl) in L. specialize (L eq_refl). discriminate. - rewrite queue_none in H. specialize (H x I N). discriminate. Qed.
Lemma get_least internal s n x : StronglySorted before (s_queues s) -> get_queue internal s n = Some x -> forall y, In y (s_queues s) -> here internal n y -> (i_order x <= i_order y)%nat.
Proof.
  unfold get_queue, here. change domestic with local in *. change usable with enabled in *. intros So H y I [N L]. destruct internal; apply (find_least _ _ _ So H); auto; cbn; rewrite N, Z.eqb_refl; auto.
Qed.
Lemma near_here b n y x : near y x -> here b n x -> here b n y.
Proof. unfold near, here. intros (A & B & C & D & E) [F G]. rewrite A, E. auto. Qed.
Lemma ask_local s h ev p k internal names : reach s (h ++ [(AskLocal p k internal names, ev)]) -> ~ lost p h ->
  exists there absent, ev = [Found p k there absent]
    /\ (forall n, In n (map fst there) <-> In n names /\ exists x, offers x h /\ here internal n x) /\ (forall n, In n absent <-> In n names /\ forall x, offers x h -> ~ here internal n x)
    /\ (once h -> forall n e d, In (n, (e, d)) there -> exists x, offers x h /\ here internal n x /\ i_enq x = e /\ i_deq x = d /\ forall y, offers y h -> here internal n y -> (i_order x <= i_order y)%nat).
Proof.
  intros R N. destruct (reach_inv _ _ _ _ R) as (s0 & R0 & Po & -> & ->). pose proof (reach_linv _ _ R0) as V. pose proof (reach_qinv _ _ R0) as Q. assert (G : gone p s0 = false). { destruct (gone p s0) eqn:G; auto. apply (v_gone _ _ V) in G. contradiction. }
  exists (known_here internal s0 names), (unknown_here internal s0 names). split; [cbn; unfold send; now rewrite G|].
  assert (IT : forall n e d, In (n, (e, d)) (known_here internal s0 names) <-> In n names /\ exists x, get_queue internal s0 n = Some x /\ i_enq x = e /\ i_deq x = d).
  { intros n e d. unfold known_here. rewrite in_flat_map. split.
    - intros (m & I & J). destruct (get_queue internal s0 m) as [x|] eqn:X; [|destruct J]. destruct J as [J|[]]. injection J as <- <- <-. split; [auto|]. exists x. auto.
    - intros (I & x & X & <- & <-). exists n. split; [auto|]. rewrite X. now left. }
  assert (SO : forall n, (exists x, get_queue internal s0 n = Some x) <-> exists x, offers x h /\ here internal n x).
  { intro n. split.
    - intros (x & X). apply get_some in X as [I H]. destruct (q_real _ _ Q x I) as (y & O & L). exists y. split; [auto|]. eapply near_here; [apply near_sym; eauto|auto].
    - intros (x & O & H). destruct (q_has _ _ Q x O) as (y & I & L). destruct (get_queue internal s0 n) as [z|] eqn:X; [eauto|]. exfalso. eapply get_none; eauto. eapply near_here; [apply like_near; eauto|auto]. }
  split; [|split].
  - intro n. rewrite <- SO, in_map_iff. split.
    + intros ([m [e d]] & <- & J). apply IT in J as (I & x & X & _). eauto.
    + intros (I & x & X). exists (n, (i_enq x, i_deq x)). split; [auto|]. apply IT. eauto.
  - intro n. unfold unknown_here. rewrite filter_In. split; intros (I & H); (split; [auto|]).
    + intros x O He. destruct (proj2 (SO n)) as (z & Z); [eauto|]. rewrite Z in H. discriminate.
    + destruct (get_queue internal s0 n) as [z|] eqn:Z; auto. exfalso. destruct (proj1 (SO n)) as (x & O & He); [eauto|]. eapply H; eauto.
  - intros O n e d J. apply IT in J as (I & x & X & <- & <-). pose proof (get_least _ _ _ _ (q_sorted _ _ Q) X) as L. apply get_some in X as [Ix H]. destruct (q_once _ _ Q O) as [E _]. exists x. split; [now apply E|]. split; [auto|]. split; [auto|]. split; [auto|]. intros y Y. apply L. now apply E.
Qed.
Lemma ask_known s h ev p k : reach s (h ++ [(AskKnown p k, ev)]) -> ~ lost p h ->
  exists names, ev = [Known p k names] /\ NoDup names /\ (forall n, In n names -> (exists x, offers x h /\ i_name x = n /\ domestic x = false) \/ exists l, waiting l h /\ l_wait l = true /\ l_name l = n)
    /\ (forall x, offers x h -> domestic x = false -> In (i_name x) names) /\ forall l, waiting l h -> ~ lost (l_ipc l) h -> l_wait l = true -> In (l_name l) names.
Proof.
  intros R N. destruct (reach_inv _ _ _ _ R) as (s0 & R0 & Po & -> & ->). pose proof (reach_linv _ _ R0) as V. pose proof (reach_qinv _ _ R0) as Q. assert (G : gone p s0 = false). { destruct (gone p s0) eqn:G; auto. apply (v_gone _ _ V) in G. contradiction. }
  exists (known_names s0). split; [cbn; unfold send; now rewrite G|]. split; [apply NoDup_nodup|]. unfold known_names. split; [|split].
  - intros n J. apply nodup_In, in_app_iff in J as [J|J]; apply in_map_iff in J as (y & <- & J); apply filter_In in J as [J L]; [left|right].
    + apply negb_true_iff in L. destruct (q_real _ _ Q y J) as (x & O & (A & B & C & D & E)). exists x. change domestic with local in *. split; [auto|]. split; congruence.
    + exists y. split; [now apply (v_in _ _ V)|auto].
  - intros x O L. change domestic with local in L. destruct (q_has _ _ Q x O) as (y & J & (A & B & C & D & E & F & H)). apply nodup_In, in_app_iff. left. rewrite <- A. apply in_map, filter_In. split; [auto|]. rewrite H, L. reflexivity.
  - intros l W NL WL. apply nodup_In, in_app_iff. right. apply in_map, filter_In. split; [|auto]. now apply (v_wait _ _ V).
Qed.

(* ---- the groups are given their configuration ---- *)
Lemma configured_when_connected s h f c pid ipc ev : reach s (h ++ [(Connect f pid ipc, ev)]) -> live f c pid h -> In (Configure f pid ipc c) ev.
Proof.
  intros R [Sp NE]. destruct (reach_inv _ _ _ _ R) as (s0 & R0 & Po & -> & ->). pose proof (reach_einv _ _ R0) as V. pose proof (einv_coordinate (MConnect f pid) s0 _ _ V) as V1. cbn [step]. rewrite bind_snd. apply in_or_app. right.
  set (s1 := fst (coordinate (MConnect f pid) s0)) in *. destruct (e_there _ _ _ V1 f c pid) as (e & I & C & P); [apply in_or_app; auto|exact NE|]. unfold connect.
  destruct (find_entity pid (entities f s1)) as [e'|] eqn:F; [|exfalso; exact (find_entity_none _ _ F e I P)]. apply find_entity_in in F as [I' P']. cbn. left. f_equal.
  destruct (e_live _ _ _ V1 f e I) as [L _]. destruct (e_live _ _ _ V1 f e' I') as [L' _]. rewrite P in L. rewrite P' in L'. destruct (e_uniq _ _ _ V1 _ _ _ _ _ L L') as [_ E]. congruence.
Qed.
Lemma told_of_exit s h pid ev : reach s (h ++ [(Exit pid, ev)]) -> ev = [Told pid].
Proof. intro R. destruct (reach_inv _ _ _ _ R) as (s0 & R0 & Po & -> & ->). reflexivity. Qed.

(* Every handler keeps the directory consistent and raises nothing. *)
From Coq Require Import ZArith List Bool Lia.
From Verif Require Import FanModel SvcModel SvcSpec SvcLemmas SvcInv.
Import ListNotations.
Local Open Scope Z_scope.

(* ---------------------------------------------------------------- services *)
Record grows (v0 : svc) (s s' : state) (vi : nat) : Prop := {
  gr_seq : s_seq s' = s_seq s; gr_con : s_con s' = s_con s; gr_fan : s_fan s' = s_fan s; gr_dis : s_disabled s' = s_disabled s;
  gr_pend : s_pend s' = s_pend s; gr_dead : s_dead s' = s_dead s; gr_late : s_late s' = s_late s; gr_timer : s_timer s' = s_timer s;
  gr_assoc : s_assoc s' = s_assoc s;
  gr_has : exists v, get (s_svc s') vi = Some v;
  gr_svc : (forall j, get (s_svc s') j = get (s_svc s) j) \/
           (get (s_svc s) vi = None /\ forall j, get (s_svc s') j = if Nat.eqb j vi then Some v0 else get (s_svc s) j);
  gr_names : forall n k, In (n, k) (s_names s') -> In (n, k) (s_names s) \/ k = vi }.

Lemma set_name_in n i l x : In x (set_name n i l) -> In x l \/ x = (n, i).
Proof. unfold set_name. cbn. rewrite filter_In. intuition. Qed.
Lemma set_names_in i ns : forall l x, In x (fold_left (fun l n => set_name n i l) ns l) -> In x l \/ snd x = i.
Proof.
  induction ns as [|n ns IH]; intros l x H; cbn [fold_left] in H; [auto|]. destruct (IH _ _ H) as [H1|H1]; [|auto].
  destruct (set_name_in _ _ _ _ H1) as [H2 | ->]; cbn; auto.
Qed.

Lemma first_known_in ns s i : first_known ns s = Some i -> exists n, In n ns /\ lookup_name n s = Some i.
Proof.
  induction ns as [|n ns IH]; cbn [first_known]; [discriminate|]. destruct (lookup_name n s) as [k|] eqn:E.
  - intros [= <-]. exists n. cbn. auto.
  - intros H. destruct (IH H) as (m & Hm & Hl). exists m. cbn. auto.
Qed.

Lemma insert_service_grows cfg v0 s s' vi : inv s -> insert_service cfg v0 s = (s', vi) -> grows v0 s s' vi.
Proof.
  intros Hi H. unfold insert_service in H. destruct (g_routes cfg (v_name v0)) as [|n0 ns] eqn:Er.
  - destruct (lookup_name (v_name v0) s) as [i|] eqn:El.
    + injection H as <- <-. split; auto. eapply i_names; eauto. eapply lookup_name_in; eauto.
    + destruct (insert v0 (s_svc s)) as [l i] eqn:Ei. injection H as <- <-. destruct (insert_spec _ _ _ _ Ei) as [H1 H2].
      split; try reflexivity; cbn [s_svc s_names with_names with_svc].
      * exists v0. rewrite H2, Nat.eqb_refl. reflexivity.
      * right. auto.
      * intros n k Hin. destruct (set_name_in _ _ _ _ Hin) as [Ho|E]; [auto|]. injection E as -> ->. auto.
  - set (x := match lookup_name (v_name v0) s with Some i => (s, i) | None => match first_known (n0 :: ns) s with Some i => (s, i) | None => let (l, i) := insert v0 (s_svc s) in (with_svc l s, i) end end) in *.
    assert (Hx : grows v0 s (fst x) (snd x)).
    { subst x. destruct (lookup_name (v_name v0) s) as [i|] eqn:El.
      - split; auto. eapply i_names; eauto. eapply lookup_name_in; eauto.
      - destruct (first_known (n0 :: ns) s) as [i|] eqn:Ef.
        + destruct (first_known_in _ _ _ Ef) as (n & _ & Hl). split; auto. eapply i_names; eauto. eapply lookup_name_in; eauto.
        + destruct (insert v0 (s_svc s)) as [l i] eqn:Ei. destruct (insert_spec _ _ _ _ Ei) as [H1 H2].
          split; try reflexivity; cbn [fst snd s_svc s_names with_svc].
          * exists v0. rewrite H2, Nat.eqb_refl. reflexivity.
          * right. auto.
          * auto. }
    destruct x as [s1 i]. cbn [fst snd] in Hx. injection H as <- <-. destruct Hx.
    split; cbn [with_names s_svc s_seq s_con s_fan s_disabled s_pend s_dead s_late s_timer s_assoc s_names]; auto.
    intros n k Hin.
    change (In (n, k) (fold_left (fun l n => set_name n i l) (n0 :: ns) (s_names s1))) in Hin.
    destruct (set_names_in _ _ _ _ Hin) as [Ho|Ho]; [auto|right; exact Ho].
Qed.

Lemma grows_get v0 s s' vi j v : grows v0 s s' vi -> get (s_svc s') j = Some v -> get (s_svc s) j = Some v \/ (j = vi /\ v = v0).
Proof.
  intros G H. destruct (gr_svc _ _ _ _ G) as [E | [_ E]]; rewrite E in H; [auto|]. destruct (Nat.eqb_spec j vi); [|auto].
  injection H as <-. auto.
Qed.
Lemma grows_keep v0 s s' vi j v : grows v0 s s' vi -> get (s_svc s) j = Some v -> get (s_svc s') j = Some v.
Proof.
  intros G H. destruct (gr_svc _ _ _ _ G) as [E | [En E]]; rewrite E; [auto|]. destruct (Nat.eqb_spec j vi); [congruence|auto].
Qed.

Lemma inv_grows v0 s s' vi : v_seq v0 = [] -> v_conc v0 = [] -> grows v0 s s' vi -> inv s -> inv s'.
Proof.
  intros Hs Hc G [I1 I2 I3 I4 I5 I6 I7 I8 I9].
  split; try rewrite (gr_seq _ _ _ _ G); try rewrite (gr_con _ _ _ _ G); try rewrite (gr_fan _ _ _ _ G); try assumption.
  - intros j v i Hj Hin. destruct (grows_get _ _ _ _ _ _ G Hj) as [Ho | [-> ->]]; [eauto|]. rewrite Hs in Hin. destruct Hin.
  - intros j v c Hj Hin. destruct (grows_get _ _ _ _ _ _ G Hj) as [Ho | [-> ->]]; [eauto|]. rewrite Hc in Hin. destruct Hin.
  - intros n k Hin. destruct (gr_names _ _ _ _ G n k Hin) as [Ho | ->].
    + destruct (I3 _ _ Ho) as (v & Hv). exists v. eapply grows_keep; eauto.
    + apply (gr_has _ _ _ _ G).
  - intros i q k Hq Hin. destruct (I4 _ _ _ Hq Hin) as (v & Hv). exists v. eapply grows_keep; eauto.
Qed.

Lemma v_add_seq_in i v j : In j (v_seq (v_add_seq i v)) <-> In j (v_seq v) \/ j = i.
Proof.
  unfold v_add_seq. destruct (mem i (v_seq v)) eqn:E.
  - apply mem_In in E. split; [auto|]. intros [H | ->]; auto.
  - cbn. rewrite in_app_iff. cbn. intuition.
Qed.
Lemma v_add_seq_conc i v : v_conc (v_add_seq i v) = v_conc v /\ v_name (v_add_seq i v) = v_name v /\ v_prio (v_add_seq i v) = v_prio v
   /\ v_timeout (v_add_seq i v) = v_timeout v /\ v_fatal (v_add_seq i v) = v_fatal v.
Proof. unfold v_add_seq. destruct (mem _ _); cbn; auto. Qed.

Lemma inv_relate s i vi q0 : inv s -> get (s_seq s) i = Some q0 -> (exists v, get (s_svc s) vi = Some v) ->
  inv (with_svc (upd vi (v_add_seq i) (s_svc s)) (with_seq (upd i (q_add vi) (s_seq s)) s)).
Proof.
  intros [I1 I2 I3 I4 I5 I6 I7 I8 I9] Hq0 (v0 & Hv0).
  assert (Hs : forall j v, get (upd vi (v_add_seq i) (s_svc s)) j = Some v -> exists v', get (s_svc s) j = Some v' /\ v_conc v = v_conc v' /\
                (forall k, In k (v_seq v) -> In k (v_seq v') \/ (k = i /\ j = vi))).
  { intros j v H. rewrite get_upd in H. destruct (Nat.eqb_spec j vi) as [->|].
    - rewrite Hv0 in H. injection H as <-. exists v0. split; [exact Hv0|]. split; [apply v_add_seq_conc|].
      intros k Hk. apply v_add_seq_in in Hk. intuition.
    - exists v. auto. }
  assert (Hq : forall j q, get (upd i (q_add vi) (s_seq s)) j = Some q -> exists q', get (s_seq s) j = Some q' /\ q_proc q = q_proc q' /\
                (forall k, In k (q_serv q) -> In k (q_serv q') \/ k = vi)).
  { intros j q H. rewrite get_upd in H. destruct (Nat.eqb_spec j i) as [->|].
    - rewrite Hq0 in H. injection H as <-. exists q0. split; [exact Hq0|]. split; [reflexivity|]. intros k. cbn. rewrite in_app_iff. cbn. intuition.
    - exists q. auto. }
  split; cbn [with_svc with_seq s_svc s_seq s_con s_names s_fan]; try assumption.
  - intros j v k Hj Hk. destruct (Hs _ _ Hj) as (v' & Hv' & _ & Hin). destruct (Hin k Hk) as [Ho | [-> ->]].
    + destruct (I1 _ _ _ Hv' Ho) as (q & Hgq & Hserv). rewrite get_upd. destruct (Nat.eqb_spec k i) as [->|]; [|eauto].
      rewrite Hgq. eexists. split; [reflexivity|]. cbn. apply in_or_app. auto.
    + rewrite get_upd, Nat.eqb_refl, Hq0. eexists. split; [reflexivity|]. cbn. apply in_or_app. right. left. reflexivity.
  - intros j v c Hj Hc. destruct (Hs _ _ Hj) as (v' & Hv' & Hcc & _). rewrite Hcc in Hc. eauto.
  - intros n k Hin. destruct (I3 _ _ Hin) as (v & Hv). rewrite get_upd. destruct (Nat.eqb_spec k vi) as [->|]; [|eauto].
    rewrite Hv. eexists. reflexivity.
  - intros j q k Hj Hk. rewrite get_upd. destruct (Nat.eqb_spec k vi) as [->|]; [rewrite Hv0; eexists; reflexivity|].
    destruct (Hq _ _ Hj) as (q' & Hq' & _ & Hin). destruct (Hin k Hk) as [Ho|]; [eauto|congruence].
  - intros j k q q' Hj Hk He. destruct (Hq _ _ Hj) as (x & Hx & Hpx & _). destruct (Hq _ _ Hk) as (y & Hy & Hpy & _).
    apply (I5 j k x y); congruence.
  - intros j q Hj. destruct (Hq _ _ Hj) as (x & Hx & Hpx & _). rewrite Hpx. eauto.
Qed.

Lemma inv_add_seq cfg i n s q0 : inv s -> get (s_seq s) i = Some q0 -> inv (add_seq_service cfg i n s).
Proof.
  intros Hi Hq. unfold add_seq_service. destruct (insert_service cfg _ s) as [s' vi] eqn:E.
  pose proof (insert_service_grows _ _ _ _ _ Hi E) as G. apply inv_relate with q0.
  - eapply inv_grows; [| |exact G|exact Hi]; reflexivity.
  - rewrite (gr_seq _ _ _ _ G). exact Hq.
  - apply (gr_has _ _ _ _ G).
Qed.
Lemma add_seq_get cfg i n s j : inv s -> (exists q, get (s_seq s) j = Some q) -> exists q, get (s_seq (add_seq_service cfg i n s)) j = Some q.
Proof.
  intros Hi (q & Hq). unfold add_seq_service. destruct (insert_service cfg _ s) as [s' vi] eqn:E.
  pose proof (insert_service_grows _ _ _ _ _ Hi E) as G. cbn [with_svc with_seq s_seq]. rewrite get_upd, (gr_seq _ _ _ _ G).
  destruct (Nat.eqb_spec j i) as [->|]; [rewrite Hq; eexists; reflexivity|eauto].
Qed.
Lemma inv_add_seqs cfg i l : forall s, inv s -> (exists q, get (s_seq s) i = Some q) ->
  inv (fold_left (fun s n => add_seq_service cfg i n s) l s) /\ exists q, get (s_seq (fold_left (fun s n => add_seq_service cfg i n s) l s)) i = Some q.
Proof.
  induction l as [|n l IH]; intros s Hi Hq; cbn [fold_left]; [auto|]. apply IH.
  - destruct Hq as (q & Hq). eapply inv_add_seq; eauto.
  - apply add_seq_get; auto.
Qed.

(* ---------------------------------------------------------------- removal of an instance from services *)
Lemma v_del_seq_in i v j : In j (v_seq (v_del_seq i v)) <-> In j (v_seq v) /\ j <> i.
Proof. cbn. apply erase_In. Qed.

Lemma inv_unrelate s i vi : inv s -> inv (with_svc (upd vi (v_del_seq i) (s_svc s)) (with_seq (upd i (q_remove vi) (s_seq s)) s)).
Proof.
  intros [I1 I2 I3 I4 I5 I6 I7 I8 I9].
  assert (Hs : forall j v, get (upd vi (v_del_seq i) (s_svc s)) j = Some v -> exists v', get (s_svc s) j = Some v' /\ v_conc v = v_conc v' /\
                (forall k, In k (v_seq v) -> In k (v_seq v') /\ (j = vi -> k <> i))).
  { intros j v H. rewrite get_upd in H. destruct (Nat.eqb_spec j vi) as [->|].
    - destruct (get (s_svc s) vi) as [v0|]; [|discriminate]. injection H as <-. exists v0. split; [reflexivity|]. split; [reflexivity|].
      intros k Hk. apply v_del_seq_in in Hk. tauto.
    - exists v. split; [exact H|]. split; [reflexivity|]. intros. split; [assumption|congruence]. }
  assert (Hq : forall j q, get (upd i (q_remove vi) (s_seq s)) j = Some q -> exists q', get (s_seq s) j = Some q' /\ q_proc q = q_proc q' /\
                (forall k, In k (q_serv q) -> In k (q_serv q'))).
  { intros j q H. rewrite get_upd in H. destruct (Nat.eqb_spec j i) as [->|].
    - destruct (get (s_seq s) i) as [q0|]; [|discriminate]. injection H as <-. exists q0. repeat split. intros k. cbn. rewrite erase_In. tauto.
    - exists q. auto. }
  assert (Hk' : forall k, (exists v, get (s_svc s) k = Some v) -> exists v, get (upd vi (v_del_seq i) (s_svc s)) k = Some v).
  { intros k (v & Hv). rewrite get_upd. destruct (Nat.eqb_spec k vi) as [->|]; [rewrite Hv; eexists; reflexivity|eauto]. }
  split; cbn [with_svc with_seq s_svc s_seq s_con s_names s_fan]; try assumption.
  - intros j v k Hj Hk. destruct (Hs _ _ Hj) as (v' & Hv' & _ & Hin). destruct (Hin k Hk) as [Ho Hne].
    destruct (I1 _ _ _ Hv' Ho) as (q & Hgq & Hserv). rewrite get_upd. destruct (Nat.eqb_spec k i) as [->|]; [|eauto].
    rewrite Hgq. eexists. split; [reflexivity|]. cbn. apply erase_In. split; [exact Hserv|]. intros ->. apply Hne; reflexivity.
  - intros j v c Hj Hc. destruct (Hs _ _ Hj) as (v' & Hv' & Hcc & _). rewrite Hcc in Hc. eauto.
  - intros n k Hin. apply Hk'. eauto.
  - intros j q k Hj Hk. apply Hk'. destruct (Hq _ _ Hj) as (q' & Hq' & _ & Hin). eauto.
  - intros j k q q' Hj Hk He. destruct (Hq _ _ Hj) as (x & Hx & Hpx & _). destruct (Hq _ _ Hk) as (y & Hy & Hpy & _).
    apply (I5 j k x y); congruence.
  - intros j q Hj. destruct (Hq _ _ Hj) as (x & Hx & Hpx & _). rewrite Hpx. eauto.
Qed.

(* a change of services that only removes instances, and keeps the services *)
Definition shrinks (f : nat -> svc -> svc) : Prop :=
  forall k v, (forall i, In i (v_seq (f k v)) -> In i (v_seq v)) /\ (forall c, In c (v_conc (f k v)) -> In c (v_conc v)).
Lemma inv_svc s l : inv s ->
  (forall k v, get l k = Some v -> exists v', get (s_svc s) k = Some v' /\ (forall i, In i (v_seq v) -> In i (v_seq v')) /\ (forall c, In c (v_conc v) -> exists c', In c' (v_conc v') /\ cc_id c' = cc_id c)) ->
  (forall k v, get (s_svc s) k = Some v -> exists v', get l k = Some v') -> inv (with_svc l s).
Proof.
  intros [I1 I2 I3 I4 I5 I6 I7 I8 I9] H1 H2. split; cbn [with_svc s_svc s_seq s_con s_names s_fan]; try assumption.
  - intros j v k Hj Hk. destruct (H1 _ _ Hj) as (v' & Hv' & Ha & _). eauto.
  - intros j v k Hj Hk. destruct (H1 _ _ Hj) as (v' & Hv' & _ & Ha). destruct (Ha _ Hk) as (c' & Hc' & <-). eauto.
  - intros n k Hin. destruct (I3 _ _ Hin) as (v & Hv). eauto.
  - intros j q k Hj Hk. destruct (I4 _ _ _ Hj Hk) as (v & Hv). eauto.
Qed.

Lemma v_del_conc_in i v c : In c (v_conc (v_del_conc i v)) <-> In c (v_conc v) /\ cc_id c <> i.
Proof.
  cbn. rewrite filter_In. destruct (Nat.eqb_spec (cc_id c) i); cbn; intuition congruence.
Qed.
Lemma cc_insert_in x l c : In c (cc_insert x l) <-> c = x \/ In c l.
Proof.
  induction l as [|y l IH]; cbn [cc_insert In]; [intuition|]. destruct (cc_lt x y); cbn [In]; [intuition|]. rewrite IH. intuition.
Qed.
Lemma cc_sort_in l c : In c (cc_sort l) <-> In c l.
Proof.
  unfold cc_sort. assert (H : forall a, In c (fold_left (fun acc x => cc_insert x acc) l a) <-> In c l \/ In c a).
  { induction l as [|x l IH]; intros a; cbn [fold_left In]; [tauto|]. rewrite IH, cc_insert_in. intuition. }
  rewrite H. cbn. tauto.
Qed.

Lemma inv_remove_seqs i ns s : inv s -> inv (remove_seq_services i ns s).
Proof.
  unfold remove_seq_services. generalize (indexes (s_svc s)). intros l. revert s. induction l as [|vi l IH]; intros s Hi; cbn [fold_left]; [exact Hi|].
  apply IH. destruct (get (s_svc s) vi); [|exact Hi]. destruct (memz _ _); [|exact Hi]. apply inv_unrelate. exact Hi.
Qed.
Lemma remove_seqs_get i ns s j : (exists q, get (s_seq s) j = Some q) -> exists q, get (s_seq (remove_seq_services i ns s)) j = Some q.
Proof.
  unfold remove_seq_services. generalize (indexes (s_svc s)). intros l. revert s. induction l as [|vi l IH]; intros s Hq; cbn [fold_left]; [exact Hq|].
  apply IH. destruct (get (s_svc s) vi); [|exact Hq]. destruct (memz _ _); [|exact Hq]. cbn [with_svc with_seq s_seq]. rewrite get_upd.
  destruct (Nat.eqb_spec j i) as [->|]; [|exact Hq]. destruct Hq as (q & ->). eexists. reflexivity.
Qed.
Lemma inv_remove_cons i ns s : inv s -> inv (remove_con_services i ns s).
Proof.
  unfold remove_con_services. generalize (indexes (s_svc s)). intros l. revert s. induction l as [|vi l IH]; intros s Hi; cbn [fold_left]; [exact Hi|].
  apply IH. destruct (get (s_svc s) vi) eqn:E; [|exact Hi]. destruct (memz _ _); [|exact Hi]. apply inv_svc; [exact Hi| |].
  - intros k v. rewrite get_upd. destruct (Nat.eqb_spec k vi) as [->|]; [|eauto 6]. rewrite E. intros [= <-]. exists s0. split; [reflexivity|].
    split; [auto|]. intros c Hc. apply v_del_conc_in in Hc. exists c. tauto.
  - intros k v Hv. rewrite get_upd. destruct (Nat.eqb_spec k vi) as [->|]; [rewrite Hv; eexists; reflexivity|eauto].
Qed.

Lemma inv_map_svc f s : inv s -> (forall v, (forall i, In i (v_seq (f v)) -> In i (v_seq v)) /\ (forall c, In c (v_conc (f v)) -> In c (v_conc v))) ->
  inv (map_svc f s).
Proof.
  intros Hi Hf. apply inv_svc; [exact Hi| |].
  - intros k v. rewrite get_map. destruct (get (s_svc s) k) as [v0|]; [|discriminate]. intros [= <-]. exists v0. destruct (Hf v0). split; [reflexivity|].
    split; [auto|]. intros c Hc. exists c. auto.
  - intros k v Hv. rewrite get_map, Hv. eexists. reflexivity.
Qed.

Lemma inv_add_con cfg i order x s : inv s -> (exists c, get (s_con s) i = Some c) -> inv (add_con_service cfg i order x s).
Proof.
  intros Hi Hc. destruct x as [[n hops] t]. unfold add_con_service. destruct (insert_service cfg _ s) as [s' vi] eqn:E.
  pose proof (insert_service_grows _ _ _ _ _ Hi E) as G.
  assert (Hi' : inv s') by (eapply inv_grows; [| |exact G|exact Hi]; reflexivity).
  destruct (gr_has _ _ _ _ G) as (v0 & Hv0). destruct Hi' as [I1 I2 I3 I4 I5 I6 I7 I8 I9].
  assert (Hs : forall j v, get (upd vi (v_add_conc i order hops) (s_svc s')) j = Some v -> exists v', get (s_svc s') j = Some v' /\ v_seq v = v_seq v' /\
                (forall c, In c (v_conc v) -> In c (v_conc v') \/ cc_id c = i)).
  { intros j v H. rewrite get_upd in H. destruct (Nat.eqb_spec j vi) as [->|]; [|eauto].
    rewrite Hv0 in H. injection H as <-. exists v0. split; [exact Hv0|]. unfold v_add_conc. destruct (knows_conc i v0); [auto|].
    cbn. split; [reflexivity|]. intros c Hin. apply cc_insert_in in Hin. destruct Hin as [-> | Hin]; auto. }
  assert (Hk' : forall k, (exists v, get (s_svc s') k = Some v) -> exists v, get (upd vi (v_add_conc i order hops) (s_svc s')) k = Some v).
  { intros k (v & Hv). rewrite get_upd. destruct (Nat.eqb_spec k vi) as [->|]; [rewrite Hv; eexists; reflexivity|eauto]. }
  split; cbn [with_svc s_svc s_seq s_con s_names s_fan]; try assumption.
  - intros j v k Hj Hk. destruct (Hs _ _ Hj) as (v' & Hv' & Hcc & _). rewrite Hcc in Hk. eauto.
  - intros j v c Hj Hin. destruct (Hs _ _ Hj) as (v' & Hv' & _ & Ha). destruct (Ha _ Hin) as [Ho | ->]; [eauto|].
    rewrite (gr_con _ _ _ _ G). exact Hc.
  - intros n0 k Hin. apply Hk'. eauto.
  - intros j q k Hj Hk. apply Hk'. eauto.
Qed.
Lemma add_con_con cfg i order x s : inv s -> s_con (add_con_service cfg i order x s) = s_con s.
Proof.
  intros Hi. destruct x as [[n hops] t]. unfold add_con_service. destruct (insert_service cfg _ s) as [s' vi] eqn:E.
  pose proof (insert_service_grows _ _ _ _ _ Hi E) as G. cbn. apply (gr_con _ _ _ _ G).
Qed.
Lemma inv_add_cons cfg i order l : forall s, inv s -> (exists c, get (s_con s) i = Some c) -> inv (fold_left (fun s x => add_con_service cfg i order x s) l s).
Proof.
  induction l as [|x l IH]; intros s Hi Hc; cbn [fold_left]; [exact Hi|]. apply IH; [apply inv_add_con; auto|]. rewrite add_con_con; auto.
Qed.

(* ---------------------------------------------------------------- instances *)
Lemma find_seq_some ipc s i : find_seq ipc s = Some i -> exists q, get (s_seq s) i = Some q /\ h_ipc (q_proc q) = ipc.
Proof. intros H. destruct (position_some _ _ _ H) as (q & Hq & E). apply Z.eqb_eq in E. eauto. Qed.
Lemma find_seq_none ipc s : find_seq ipc s = None -> forall i q, get (s_seq s) i = Some q -> h_ipc (q_proc q) <> ipc.
Proof. intros H i q Hq E. pose proof (position_none _ _ H i q Hq) as Hn. apply Z.eqb_neq in Hn. congruence. Qed.
Lemma find_con_some ipc s i : find_con ipc s = Some i -> exists q, get (s_con s) i = Some q /\ h_ipc (ci_proc q) = ipc.
Proof. intros H. destruct (position_some _ _ _ H) as (q & Hq & E). apply Z.eqb_eq in E. eauto. Qed.
Lemma find_con_none ipc s : find_con ipc s = None -> forall i q, get (s_con s) i = Some q -> h_ipc (ci_proc q) <> ipc.
Proof. intros H i q Hq E. pose proof (position_none _ _ H i q Hq) as Hn. apply Z.eqb_neq in Hn. congruence. Qed.

Lemma inv_add_instance h s s' i : inv s -> h_valid h = true -> find_or_add_seq h s = (s', i) ->
  inv s' /\ (exists q, get (s_seq s') i = Some q /\ h_ipc (q_proc q) = h_ipc h).
Proof.
  intros Hi Hh H. unfold find_or_add_seq in H. destruct (find_seq (h_ipc h) s) as [k|] eqn:E.
  - injection H as <- <-. split; [exact Hi|]. apply find_seq_some. exact E.
  - destruct (insert _ _) as [l k] eqn:Ei. injection H as <- <-. destruct (insert_spec _ _ _ _ Ei) as [H1 H2].
    pose proof (find_seq_none _ _ E) as Hn. destruct Hi as [I1 I2 I3 I4 I5 I6 I7 I8 I9].
    split; [split; cbn [with_seq s_svc s_seq s_con s_names s_fan]; try assumption|].
    + intros vi v j Hv Hj. destruct (I1 _ _ _ Hv Hj) as (q & Hq & Hs). exists q. split; [|exact Hs]. rewrite H2.
      destruct (Nat.eqb_spec j k); [congruence|exact Hq].
    + intros j q vi Hj Hs. rewrite H2 in Hj. destruct (Nat.eqb_spec j k); [injection Hj as <-; destruct Hs|eauto].
    + intros a b q q' Ha Hb Heq. rewrite H2 in Ha, Hb. destruct (Nat.eqb_spec a k), (Nat.eqb_spec b k); subst; auto.
      * injection Ha as <-. exfalso. eapply Hn; [exact Hb|]. cbn in Heq. congruence.
      * injection Hb as <-. exfalso. eapply Hn; [exact Ha|]. cbn in Heq. congruence.
      * eapply I5; eauto.
    + intros j q Hj. rewrite H2 in Hj. destruct (Nat.eqb_spec j k); [injection Hj as <-; exact Hh|eauto].
    + eexists. split; [cbn [with_seq s_seq]; rewrite H2, Nat.eqb_refl; reflexivity|reflexivity].
Qed.
Lemma inv_add_con_instance h s s' i : inv s -> h_valid h = true -> find_or_add_con h s = (s', i) ->
  inv s' /\ (exists q, get (s_con s') i = Some q /\ h_ipc (ci_proc q) = h_ipc h).
Proof.
  intros Hi Hh H. unfold find_or_add_con in H. destruct (find_con (h_ipc h) s) as [k|] eqn:E.
  - injection H as <- <-. split; [exact Hi|]. apply find_con_some. exact E.
  - destruct (insert _ _) as [l k] eqn:Ei. injection H as <- <-. destruct (insert_spec _ _ _ _ Ei) as [H1 H2].
    pose proof (find_con_none _ _ E) as Hn. destruct Hi as [I1 I2 I3 I4 I5 I6 I7 I8 I9].
    split; [split; cbn [with_con s_svc s_seq s_con s_names s_fan]; try assumption|].
    + intros vi v c Hv Hj. destruct (I2 _ _ _ Hv Hj) as (q & Hq). exists q. rewrite H2.
      destruct (Nat.eqb_spec (cc_id c) k); [congruence|exact Hq].
    + intros a b q q' Ha Hb Heq. rewrite H2 in Ha, Hb. destruct (Nat.eqb_spec a k), (Nat.eqb_spec b k); subst; auto.
      * injection Ha as <-. exfalso. eapply Hn; [exact Hb|]. cbn in Heq. congruence.
      * injection Hb as <-. exfalso. eapply Hn; [exact Ha|]. cbn in Heq. congruence.
      * eapply I6; eauto.
    + intros j q Hj. rewrite H2 in Hj. destruct (Nat.eqb_spec j k); [injection Hj as <-; exact Hh|eauto].
    + eexists. split; [cbn [with_con s_con]; rewrite H2, Nat.eqb_refl; reflexivity|reflexivity].
Qed.
Lemma inv_order s i order : inv s -> inv (with_con (upd i (fun c => mk_ci (ci_proc c) order) (s_con s)) s).
Proof.
  intros [I1 I2 I3 I4 I5 I6 I7 I8 I9].
  assert (H : forall j c, get (upd i (fun c => mk_ci (ci_proc c) order) (s_con s)) j = Some c -> exists c', get (s_con s) j = Some c' /\ ci_proc c = ci_proc c').
  { intros j c Hj. rewrite get_upd in Hj. destruct (Nat.eqb_spec j i) as [->|]; [|eauto]. destruct (get (s_con s) i) as [c'|]; [|discriminate].
    injection Hj as <-. exists c'. auto. }
  split; cbn [with_con s_svc s_seq s_con s_names s_fan]; try assumption.
  - intros vi v c Hv Hc. rewrite get_upd. destruct (I2 _ _ _ Hv Hc) as (x & Hx). destruct (Nat.eqb_spec (cc_id c) i) as [<-|]; [rewrite Hx; eexists; reflexivity|eauto].
  - intros a b q q' Ha Hb Heq. destruct (H _ _ Ha) as (x & Hx & Ex). destruct (H _ _ Hb) as (y & Hy & Ey). apply (I6 a b x y); congruence.
  - intros j q Hj. destruct (H _ _ Hj) as (x & Hx & Ex). rewrite Ex. eauto.
Qed.

Lemma inv_remove_con i s : inv s -> inv (remove_con_instance i s).
Proof.
  intros Hi. unfold remove_con_instance.
  assert (Hm : inv (map_svc (v_del_conc i) s)).
  { apply inv_map_svc; [exact Hi|]. intros v. split; [auto|]. intros c Hc. apply v_del_conc_in in Hc. tauto. }
  destruct Hm as [I1 I2 I3 I4 I5 I6 I7 I8 I9].
  split; cbn [with_con s_svc s_seq s_con s_names s_fan map_svc with_svc] in *; try assumption.
  - intros vi v c Hv Hc. rewrite get_put_none. destruct (I2 _ _ _ Hv Hc) as (x & Hx). rewrite get_map in Hv.
    destruct (get (s_svc s) vi) as [v0|]; [|discriminate]. injection Hv as <-. apply v_del_conc_in in Hc.
    destruct (Nat.eqb_spec (cc_id c) i); [tauto|eauto].
  - intros a b q q'. rewrite !get_put_none. destruct (Nat.eqb_spec a i); [discriminate|]. destruct (Nat.eqb_spec b i); [discriminate|]. eauto.
  - intros a q. rewrite !get_put_none. destruct (Nat.eqb_spec a i); [discriminate|]. eauto.
Qed.
Lemma inv_remove_seq i s : inv s -> inv (remove_seq_instance i s).
Proof.
  intros Hi. unfold remove_seq_instance.
  assert (Hm : inv (map_svc (v_del_seq i) s)).
  { apply inv_map_svc; [exact Hi|]. intros v. split; [|auto]. intros c Hc. apply v_del_seq_in in Hc. tauto. }
  destruct Hm as [I1 I2 I3 I4 I5 I6 I7 I8 I9].
  split; cbn [with_disabled with_seq s_svc s_seq s_con s_names s_fan map_svc with_svc] in *; try assumption.
  - intros vi v c Hv Hc. rewrite get_put_none. destruct (I1 _ _ _ Hv Hc) as (x & Hx). rewrite get_map in Hv.
    destruct (get (s_svc s) vi) as [v0|]; [|discriminate]. injection Hv as <-. apply v_del_seq_in in Hc.
    destruct (Nat.eqb_spec c i); [tauto|eauto].
  - intros j q vi. rewrite get_put_none. destruct (Nat.eqb_spec j i); [discriminate|]. eauto.
  - intros a b q q'. rewrite !get_put_none. destruct (Nat.eqb_spec a i); [discriminate|]. destruct (Nat.eqb_spec b i); [discriminate|]. eauto.
  - intros a q. rewrite !get_put_none. destruct (Nat.eqb_spec a i); [discriminate|]. eauto.
Qed.
Lemma fold_inv {A} (f : state -> A -> state) (P : state -> Prop) l : (forall s x, P s -> P (f s x)) -> forall s, P s -> P (fold_left f l s).
Proof. intros Hf. induction l as [|x l IH]; intros s Hs; cbn [fold_left]; auto. Qed.
Lemma inv_remove_process p s : inv s -> inv (fst (remove_process p s)).
Proof.
  intros Hi. unfold remove_process. cbn [fst]. apply fold_inv; [intros; apply inv_remove_seq; assumption|].
  apply fold_inv; [intros; apply inv_remove_con; assumption|exact Hi].
Qed.

(* ---------------------------------------------------------------- handlers *)
Lemma inv_fan s f : inv s -> flive f -> inv (with_fan f s).
Proof. intros [] Hf. split; assumption. Qed.
Lemma inv_dis s x : inv s -> inv (with_disabled x s).
Proof. intros []. split; assumption. Qed.
Lemma inv_late s x : inv s -> inv (with_late x s).
Proof. intros []. split; assumption. Qed.
Lemma inv_pend s x : inv s -> inv (with_pend x s).
Proof. intros []. split; assumption. Qed.
Lemma inv_dead s x : inv s -> inv (with_dead x s).
Proof. intros []. split; assumption. Qed.
Lemma inv_timer s x : inv s -> inv (with_timer x s).
Proof. intros []. split; assumption. Qed.
Lemma inv_free s i : inv s -> inv (with_seq (upd i q_free (s_seq s)) s).
Proof. intros H. eapply inv_same; [apply same_upd; reflexivity|exact H]. Qed.

Definition good (x : state * list out) : Prop := inv (fst x) /\ no_raise (snd x).
Lemma good_nil s : inv s -> good (s, []).
Proof. intros H. split; [exact H|intros []]. Qed.
Lemma good_serve cfg e i s : inv s -> (exists q, get (s_seq s) i = Some q) -> good (serve_first cfg e i s).
Proof. intros Hi Hq. destruct (serve_same cfg e i s Hi Hq). split; [eapply inv_same; eauto|assumption]. Qed.
Lemma good_lookup cfg e r s : inv s -> good (lookup cfg e r s).
Proof.
  intros Hi. pose proof (lookup_looked cfg e r s Hi) as H. split; [eapply inv_same; [eapply looked_same; eauto|exact Hi]|eapply looked_no_raise; eauto].
Qed.
Lemma good_again cfg e l s : inv s -> good (lookup_again cfg e l s).
Proof. intros Hi. destruct (again_same cfg e l s Hi). split; [eapply inv_same; eauto|assumption]. Qed.
Lemma good_then x f : good x -> (forall s, inv s -> good (f s)) -> good (then_ x f).
Proof.
  intros [H1 H2] Hf. destruct (Hf _ H1). split; [rewrite then_fst; assumption|rewrite then_snd; apply no_raise_app; assumption].
Qed.

Lemma shutdown_no_raise ds : no_raise (map shutdown_fired ds).
Proof. intros H. apply in_map_iff in H. destruct H as (d & H & _). discriminate. Qed.

Lemma good_advertise cfg e h alias add rem s : inv s -> good (advertise cfg e h alias add rem s).
Proof.
  intros Hi. unfold advertise. destruct (h_valid h) eqn:Eh; cbn [negb]; [|apply good_nil; exact Hi].
  assert (Hgen : forall add, good (let add0 := filter (g_allow cfg alias) add in
      let (s0, i) := find_or_add_seq h s in
      if mem i (s_disabled s0) then
        (with_disabled (match extract_first (Nat.eqb i) (s_disabled s0) with Some (_, l) => l | None => s_disabled s0 end) s0, [])
      else serve_first cfg e i (remove_seq_services i rem (fold_left (fun s n => add_seq_service cfg i n s) add0 s0)))).
  { intros add0. cbv zeta. destruct (find_or_add_seq h s) as [s1 i] eqn:Ef. destruct (inv_add_instance _ _ _ _ Hi Eh Ef) as (Hi1 & q & Hq & _).
    destruct (mem i (s_disabled s1)); [apply good_nil, inv_dis; exact Hi1|].
    destruct (inv_add_seqs cfg i (filter (g_allow cfg alias) add0) s1 Hi1 (ex_intro _ q Hq)) as [Hi2 Hq2].
    apply good_serve; [apply inv_remove_seqs; exact Hi2|apply remove_seqs_get; exact Hq2]. }
  destruct add as [|a add]; [destruct rem as [|b rem]|].
  - apply good_nil, inv_remove_process. exact Hi.
  - exact (Hgen []).
  - exact (Hgen (a :: add)).
Qed.

Lemma good_advertise_con cfg e h alias dir order add rem s : inv s -> good (advertise_con cfg e h alias dir order add rem s).
Proof.
  intros Hi. unfold advertise_con. destruct (h_valid h) eqn:Eh; cbn [negb]; [|apply good_nil; exact Hi]. destruct dir.
  - destruct (find_or_add_con h s) as [s1 i] eqn:Ef. destruct (inv_add_con_instance _ _ _ _ Hi Eh Ef) as (Hi1 & q & Hq & _).
    destruct (partition _ _) as [found rest]. apply good_again, inv_pend, inv_remove_cons, inv_add_cons; [apply inv_order; exact Hi1|].
    cbn [with_con s_con]. rewrite get_upd, Nat.eqb_refl, Hq. eexists. reflexivity.
  - apply good_nil, inv_remove_process. exact Hi.
  - destruct (find_con (h_ipc h) s) as [i|]; [|apply good_nil; exact Hi]. apply good_nil, inv_map_svc; [apply inv_order; exact Hi|].
    intros v. split; [auto|]. intros c Hc. unfold update_prioritized in Hc. cbn [v_conc] in Hc. apply (proj1 (cc_sort_in _ _)) in Hc. try (apply (proj1 (cc_sort_in _ _)) in Hc). exact Hc.
Qed.

Lemma same_discard f s : (forall q, sid (f q) = sid q) -> same_dir s (with_seq (map (option_map f) (s_seq s)) s).
Proof.
  intros Hf. split; cbn; try reflexivity. intros i. rewrite get_map. destruct (get (s_seq s) i); cbn; [rewrite Hf|]; reflexivity.
Qed.
Lemma good_discard ipc corr reply s : inv s -> good (discard ipc corr reply s).
Proof.
  intros Hi. unfold discard. destruct (extract_first _ _) as [[p rest]|].
  - split; [apply inv_pend; exact Hi|]. cbn. destruct reply; cbn; unfold no_raise; cbn; intuition discriminate.
  - split; [|destruct reply; cbn; unfold no_raise; cbn; intuition discriminate]. cbn [fst]. eapply inv_same; [|exact Hi].
    apply same_discard. intros q. destruct (_ && _); reflexivity.
Qed.

Lemma same_dead_remove c s : same_dir s (dead_remove c s).
Proof.
  unfold dead_remove. destruct (s_dead s) as [|x r]; [apply same_refl|]. destruct (d_corr x =? c); [|apply same_dead].
  destruct r; split; reflexivity.
Qed.
Lemma good_notify pid trid s : inv s -> good (notify_tm pid trid s).
Proof.
  intros Hi. unfold notify_tm. destruct (negb trid); [apply good_nil; exact Hi|]. destruct (extract_first _ _) as [[x l]|]; [|apply good_nil; exact Hi].
  split; [apply inv_late; exact Hi|]. unfold no_raise. cbn. intuition discriminate.
Qed.
Lemma good_ack cfg e corr h trid s : inv s -> good (ack cfg e corr h trid s).
Proof.
  intros Hi. unfold ack. apply good_then; [apply good_notify; eapply inv_same; [apply same_dead_remove|exact Hi]|].
  intros s1 Hi1. destruct (find_seq (h_ipc h) s1) as [i|] eqn:Ef; [|apply good_nil; exact Hi1].
  destruct (find_seq_some _ _ _ Ef) as (q & Hq & _). cbn [with_seq s_disabled s_fan].
  destruct (mem i (s_disabled s1)).
  - destruct (flive_reply corr (h_pid h) (s_fan s1) (i_fan _ Hi1)) as (f & ds & -> & Hf).
    split; [apply inv_fan; [apply inv_free; exact Hi1|exact Hf]|apply shutdown_no_raise].
  - apply good_serve; [apply inv_free; exact Hi1|]. cbn [with_seq s_seq]. rewrite get_upd, Nat.eqb_refl, Hq. eexists. reflexivity.
Qed.

Lemma good_exit cfg e pid s : inv s -> good (process_exit cfg e pid s).
Proof.
  intros Hi. unfold process_exit. pose proof (flive_failed pid _ (i_fan _ Hi)) as Hf. destruct (fan_failed pid (s_fan s)) as [f ds]. cbn [fst] in Hf.
  pose proof (inv_remove_process (fun x => h_pid x =? pid) _ (inv_fan s f Hi Hf)) as Hr.
  destruct (remove_process _ _) as [s1 cs]. cbn [fst] in Hr. apply good_then.
  - split; [apply inv_pend, inv_late; exact Hr|]. cbn [snd]. apply no_raise_app; [apply shutdown_no_raise|].
    intros H. apply in_map_iff in H. destruct H as (c & H & _). discriminate.
  - intros s2 Hi2. apply good_again. exact Hi2.
Qed.

Lemma good_expire_one x s : inv s -> good (expire_one x s).
Proof.
  intros Hi. unfold expire_one. destruct (extract_first _ _) as [[p rest]|].
  - split; [apply inv_pend; exact Hi|]. unfold no_raise. cbn. intuition discriminate.
  - destruct (d_serv x) as [vi|]; [|apply good_nil; exact Hi]. destruct (d_target x) as [i|]; [|apply good_nil; exact Hi].
    destruct (get (s_svc s) vi) as [v|]; [|apply good_nil; exact Hi]. destruct (get (s_seq s) i) as [q|]; [|apply good_nil; exact Hi].
    destruct (_ =? _); [|apply good_nil; exact Hi].
    assert (Hc : inv (with_seq (upd i q_consume (s_seq s)) s)) by (eapply inv_same; [apply same_upd; reflexivity|exact Hi]).
    cbv zeta. destruct (h_valid _); [|apply good_nil; exact Hc].
    split; [|unfold no_raise; cbn; intuition discriminate]. cbn [fst]. destruct (v_fatal v); [apply inv_dis|]; apply inv_late; exact Hc.
Qed.
Lemma good_each_expire l : forall s, inv s -> good (each expire_one l s).
Proof.
  induction l as [|x l IH]; intros s Hi; cbn [each]; [apply good_nil; exact Hi|]. apply good_then; [apply good_expire_one; exact Hi|exact IH].
Qed.
Lemma good_timeout e s : inv s -> good (timeout e s).
Proof.
  intros Hi. unfold timeout. apply good_then; [apply good_each_expire, inv_dead; exact Hi|]. intros s1 Hi1.
  destruct (dead_rest _ _); apply good_nil; [exact Hi1|apply inv_timer; exact Hi1].
Qed.

Lemma inv_del_one s i vi v : inv s -> get (s_svc s) vi = Some v -> inv (with_svc (upd vi (v_del_seq i) (s_svc s)) s).
Proof.
  intros Hi Hv. apply inv_svc; [exact Hi| |].
  - intros k x. rewrite get_upd. destruct (Nat.eqb_spec k vi) as [->|]; [|eauto 6]. rewrite Hv. intros [= <-]. exists v. split; [reflexivity|].
    split; [intros j Hj; apply v_del_seq_in in Hj; tauto|eauto].
  - intros k x Hk. rewrite get_upd. destruct (Nat.eqb_spec k vi) as [->|]; [rewrite Hk; eexists; reflexivity|eauto].
Qed.
Lemma prepare_services_inv i l : forall s ns ok, inv s -> (forall vi, In vi l -> exists v, get (s_svc s) vi = Some v) ->
  forall s' ns' ok', fold_left (fun x vi =>
    let '(s, ns, ok) := x in
    match get (s_svc s) vi with
    | None => (s, ns, false)
    | Some v => (with_svc (upd vi (v_del_seq i) (s_svc s)) s, if v_empty (v_del_seq i v) then ns ++ names_of vi s else ns, ok)
    end) l (s, ns, ok) = (s', ns', ok') -> inv s' /\ ok' = ok /\ s_seq s' = s_seq s /\ s_pend s' = s_pend s.
Proof.
  induction l as [|vi l IH]; intros s ns ok Hi Hl s' ns' ok' H; cbn [fold_left] in H; [injection H as <- <- <-; auto|].
  destruct (Hl vi (or_introl eq_refl)) as (v & Hv). rewrite Hv in H. apply IH in H; [exact H|eapply inv_del_one; eauto|].
  intros k Hk. cbn [with_svc s_svc]. rewrite get_upd. destruct (Hl k (or_intror Hk)) as (x & Hx).
  destruct (Nat.eqb_spec k vi) as [->|]; [rewrite Hx; eexists; reflexivity|eauto].
Qed.
Lemma prepare_each_inv hs : forall s s' ns is us ok, inv s -> prepare_each hs s = (s', ns, is, us, ok) ->
  inv s' /\ ok = true /\ s_seq s' = s_seq s /\ s_pend s' = s_pend s.
Proof.
  induction hs as [|h hs IH]; intros s s' ns is us ok Hi H; cbn [prepare_each] in H; [injection H as <- <- <- <- <-; auto|].
  destruct (find_seq (h_ipc h) s) as [i|] eqn:Ef.
  - destruct (find_seq_some _ _ _ Ef) as (q & Hq & _). rewrite Hq in H.
    destruct (prepare_services i (q_serv q) s) as [[s1 ns1] ok1] eqn:Ep.
    destruct (prepare_each hs s1) as [[[[s2 ns2] is2] us2] ok2] eqn:Er. injection H as <- <- <- <- <-.
    unfold prepare_services in Ep. apply prepare_services_inv in Ep; [|exact Hi|intros vi Hvi; eapply i_serv; eauto].
    destruct Ep as (Hi1 & -> & Hs1 & Hp1). destruct (IH _ _ _ _ _ _ Hi1 Er) as (Hi2 & -> & Hs2 & Hp2). split; [exact Hi2|]. split; [reflexivity|]. split; congruence.
  - destruct (prepare_each hs s) as [[[[s2 ns2] is2] us2] ok2] eqn:Er. injection H as <- <- <- <- <-. apply (IH _ _ _ _ _ _ Hi Er).
Qed.
Lemma good_prepare cfg e ipc hs s : inv s -> good (prepare cfg e ipc hs s).
Proof.
  intros Hi. unfold prepare. destruct (prepare_each hs s) as [[[[s1 ns] is] us] ok] eqn:Ep.
  destruct (prepare_each_inv _ _ _ _ _ _ _ Hi Ep) as (Hi1 & -> & _ & _). cbv zeta. apply good_then.
  - destruct (partition _ _) as [found rest]. apply good_again, inv_pend. exact Hi1.
  - intros s2 Hi2. set (now := match filter _ is with [] => match us with [] => [] | _ => _ end | _ => _ end).
    assert (Hn : no_raise now).
    { subst now. destruct (filter (fun i => negb (seq_busy i s2)) is); [destruct us|]; unfold no_raise; cbn; intuition discriminate. }
    destruct (filter (fun i => seq_busy i s2) is) as [|b bs] eqn:Eb; [split; [exact Hi2|exact Hn]|].
    cbn [with_disabled s_fan]. pose proof (flive_start (map (fun i => (seq_corr i s2, h_pid (seq_proc i s2))) (b :: bs)) ipc _ (i_fan _ Hi2)) as Hf.
    destruct (fan_start _ _ _) as [f ds]. cbn [fst] in Hf. split; [apply inv_fan; [apply inv_dis; exact Hi2|exact Hf]|].
    cbn [snd]. apply no_raise_app; [exact Hn|apply shutdown_no_raise].
Qed.

Lemma good_discovered cfg e corr s : inv s -> good (discovered cfg e corr s).
Proof.
  intros Hi. unfold discovered. destruct (extract_first _ _) as [[p rest]|]; [|apply good_nil; exact Hi]. cbv zeta.
  match goal with |- good (if ?x then _ else _) => destruct x end; [apply good_lookup, inv_pend; exact Hi|].
  destruct (r_sem _); try (apply good_nil; exact Hi); (split; [apply inv_pend; exact Hi|unfold no_raise; cbn; intuition discriminate]).
Qed.

Theorem step_good cfg e i s : inv s -> good (step cfg e i s).
Proof.
  intros Hi. destruct i; cbn [step].
  - apply good_advertise; exact Hi.
  - apply good_advertise_con; exact Hi.
  - apply good_lookup; exact Hi.
  - apply good_discard; exact Hi.
  - apply good_ack; exact Hi.
  - apply good_exit; exact Hi.
  - apply good_timeout; exact Hi.
  - apply good_prepare; exact Hi.
  - apply good_nil. unfold disassociate. destruct Hi. split; assumption.
  - apply good_discovered; exact Hi.
  - unfold lost. split; [|unfold no_raise; cbn; intuition discriminate]. eapply inv_same; [apply same_undeliverable|exact Hi].
Qed.

Lemma start_inv cfg conf : inv (start cfg conf).
Proof.
  unfold start. apply fold_inv; [|apply inv_empty]. intros s [[n t] f] Hi. destruct (insert_service cfg _ s) as [s' vi] eqn:E. cbn [fst].
  eapply inv_grows; [| |eapply insert_service_grows; eauto|exact Hi]; reflexivity.
Qed.

Lemma run_inv cfg l : forall s, inv s -> inv (fst (run cfg l s)) /\ ~ In (Eff O_raise) (snd (run cfg l s)).
Proof.
  induction l as [|[e i] l IH]; intros s Hi; cbn [run]; [split; [exact Hi|intros []]|].
  pose proof (step_good cfg e i s Hi) as [H1 H2]. destruct (step cfg e i s) as [s1 o]. cbn [fst snd] in *.
  destruct (IH s1 H1) as [H3 H4]. destruct (run cfg l s1) as [s2 t]. cbn [fst snd] in *. split; [exact H3|].
  intros [H|H]; [discriminate|]. apply in_app_or in H. destruct H as [H|H]; [|auto]. apply in_map_iff in H. destruct H as (x & Hx & Hin).
  injection Hx as ->. auto.
Qed.

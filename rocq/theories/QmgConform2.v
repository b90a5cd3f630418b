(* The queue manager: the groups become what the configuration wants. *)
From Coq Require Import ZArith List Bool Lia.
From Verif Require Import QmgModel QmgSpec QmgProofs QmgEnt QmgQueues QmgOffers QmgLook QmgLook2 QmgAnswers QmgTasks QmgConform.
Import ListNotations.
Local Open Scope Z_scope.

(* a step that asks for nothing *)
Lemma frame i s : asks i = false -> exists s1 ev1 ev2, ((s1 = s /\ ev1 = []) \/ exists m, s1 = fst (coordinate m s) /\ ev1 = snd (coordinate m s)) /\ snd (step i s) = ev1 ++ ev2 /\ (forall e, In e ev2 -> acts e = false)
  /\ s_active (fst (step i s)) = s_active s1 /\ s_tasks (fst (step i s)) = s_tasks s1
  /\ forall f e, In e (entities f (fst (step i s))) -> exists e', In e' (entities f s1) /\ e_conf e' = e_conf e /\ e_pid e' = e_pid e /\ (e_life e' <= e_life e)%nat /\ ((3 <= e_life e)%nat -> (3 <= e_life e')%nat \/ exists qs, i = Configured f (e_pid e) qs).
Proof.
  intro A.
  assert (ID : forall s1 s2, s_groups s2 = s_groups s1 -> s_forwards s2 = s_forwards s1 -> forall f e, In e (entities f s2) -> exists e', In e' (entities f s1) /\ e_conf e' = e_conf e /\ e_pid e' = e_pid e /\ (e_life e' <= e_life e)%nat /\ ((3 <= e_life e)%nat -> (3 <= e_life e')%nat \/ exists qs, i = Configured f (e_pid e) qs)).
  { intros s1 s2 X Y f e J. exists e. split; [destruct f; cbn in *; congruence|]. auto 9. }
  destruct i as [m|l|p k|pid ipc n add rem|ipc n|ipc|k|p k|p k int names|f pid ipc|f pid qs|pid|pid|ipc|p k m| | |ipc]; try discriminate.
  - exists s, [], (snd (step (Lookup l) s)). split; [auto|]. split; [auto|]. cbn [step]. destruct (lookup_cases l s) as [(E & V & _)|[(x & E & V & _)|(E & _ & _ & [(_ & V)|(_ & _ & V)])]]; rewrite V, E; (split; [|split; [reflexivity|split; [reflexivity|apply ID; auto]]]).
    + intros e J. apply absent_in in J as [_ ->]. reflexivity. + intros e J. apply send_acts in J; auto. + intros e [<-|[]]. reflexivity. + intros e [].
  - exists s, [], (snd (step (DiscardLookup p k) s)). split; [auto|]. split; [auto|]. cbn [step]. unfold discard_lookup. destruct (existsb _ _); cbn [fst snd]; (split; [|split; [reflexivity|split; [reflexivity|apply ID; auto]]]); intros e J; apply send_acts in J; auto.
  - exists s, [], (snd (step (Advertise pid ipc n add rem) s)). split; [auto|]. split; [auto|]. destruct (advertise_same pid ipc n add rem s) as (_ & X & Y). split; [intros e J; eapply check_acts; eauto|]. cbn [step].
    assert (s_active (advertise pid ipc n add rem s) = s_active s /\ s_tasks (advertise pid ipc n add rem s) = s_tasks s) as [Z W].
    { unfold advertise. assert (B : forall l t, s_active (fold_left (add_remote pid ipc n) l t) = s_active t /\ s_tasks (fold_left (add_remote pid ipc n) l t) = s_tasks t) by (induction l as [|q l IH]; intro t; cbn; auto; destruct (IH (add_remote pid ipc n t q)) as [-> ->]; auto).
      assert (C : forall l t, s_active (fold_left (remove_remote ipc) l t) = s_active t /\ s_tasks (fold_left (remove_remote ipc) l t) = s_tasks t) by (induction l as [|q l IH]; intro t; cbn; auto; destruct (IH (remove_remote ipc t q)) as [-> ->]; auto).
      match goal with |- s_active (fold_left _ rem ?x) = _ /\ _ => destruct (C rem x) as [-> ->] end. match goal with |- s_active (fold_left _ add ?x) = _ /\ _ => destruct (B add x) as [-> ->] end. destruct (existsb _ _); auto. }
    split; [exact Z|]. split; [exact W|]. apply ID; auto.
  - exists s, [], (snd (step (Order ipc n) s)). split; [auto|]. split; [auto|]. split; [intros e J; eapply check_acts; eauto|]. cbn [step check fst]. unfold order_of. destruct (existsb _ _); (split; [reflexivity|]; split; [reflexivity|]; apply ID; auto).
  - exists s, [], (snd (step (Reset ipc) s)). split; [auto|]. split; [auto|]. split; [intros e J; eapply check_acts; eauto|]. split; [auto|]. split; [auto|]. apply ID; auto.
  - exists s, [], (snd (step (Discovered k) s)). split; [auto|]. split; [auto|]. rewrite step_discovered, bind_fst, bind_snd. destruct (discovered_split k (fst (check s))) as [(l & _ & _ & _ & ->)|[_ ->]]; cbn [fst snd]; (split; [|split; [auto|split; [auto|apply ID; auto]]]); intros e J; apply in_app_iff in J as [J|J]; try (eapply check_acts; eauto; fail).
    + apply absent_in in J as [_ ->]. reflexivity. + destruct J.
  - exists s, [], (snd (step (AskKnown p k) s)). split; [auto|]. split; [auto|]. split; [intros e J; apply send_acts in J; auto|]. split; [auto|]. split; [auto|]. apply ID; auto.
  - exists s, [], (snd (step (AskLocal p k int names) s)). split; [auto|]. split; [auto|]. split; [intros e J; apply send_acts in J; auto|]. split; [auto|]. split; [auto|]. apply ID; auto.
  - cbn [step]. rewrite bind_fst, bind_snd. set (s1 := fst (coordinate (MConnect f pid) s)). exists s1, (snd (coordinate (MConnect f pid) s)), (snd (connect f pid ipc s1)). split; [right; eexists; split; reflexivity|]. split; [auto|]. unfold connect. destruct (find_entity pid (entities f s1)) as [en|]; cbn [fst snd].
    + split; [intros e [<-|[]]; reflexivity|]. split; [destruct f; reflexivity|]. split; [destruct f; reflexivity|]. intros g e J. rewrite entities_with in J. destruct (Bool.eqb g f) eqn:X; [|exists e; auto 9]. apply eqb_prop in X as ->.
      clear -J. induction (entities f s1) as [|x r IH]; cbn in J; [destruct J|]. destruct (e_pid x =? pid).
      * destruct J as [<-|J]; [exists x; split; [now left|]; cbn; split; [auto|]; split; [auto|]; split; [lia|]; intro; left; lia|exists e; split; [now right|auto 9]].
      * destruct J as [<-|J]; [exists x; split; [now left|auto 9]|]. destruct (IH J) as (e' & X & Y). exists e'. split; [now right|auto 9].
    + split; [intros e []|]. split; [auto|]. split; [auto|]. apply ID; auto.
  - destruct f; cbn [step]; rewrite bind_fst, bind_snd.
    + set (s1 := fst (coordinate (MConfigured true pid) s)). exists s1, (snd (coordinate (MConfigured true pid) s)), []. split; [right; eexists; split; reflexivity|]. split; [auto|]. split; [intros e []|]. split; [auto|]. split; [auto|]. cbn [fst]. intros g e J. rewrite entities_with in J. destruct (Bool.eqb g true) eqn:X; [|exists e; auto 9]. apply eqb_prop in X as ->. change (s_forwards s1) with (entities true s1) in J.
      induction (entities true s1) as [|x r IH]; cbn in J; [destruct J|]. destruct (e_pid x =? pid) eqn:P.
      * apply Z.eqb_eq in P. destruct J as [<-|J]; [exists x; split; [now left|]; cbn; split; [auto|]; split; [auto|]; split; [lia|]; intro; right; exists qs; now rewrite P|exists e; split; [now right|auto 9]].
      * destruct J as [<-|J]; [exists x; split; [now left|auto 9]|]. destruct (IH J) as (e' & X & Y). exists e'. split; [now right|auto 9].
    + set (s1 := fst (coordinate (MConfigured false pid) s)). exists s1, (snd (coordinate (MConfigured false pid) s)), (snd (check (update_group pid qs s1))). split; [right; eexists; split; reflexivity|]. split; [auto|]. split; [intros e J; eapply check_acts; eauto|].
      assert (U : s_active (update_group pid qs s1) = s_active s1 /\ s_tasks (update_group pid qs s1) = s_tasks s1 /\ s_forwards (update_group pid qs s1) = s_forwards s1 /\ (s_groups (update_group pid qs s1) = s_groups s1 \/ s_groups (update_group pid qs s1) = on_entity pid (set_life 3) (s_groups s1))).
      { unfold update_group. destruct (find_entity _ _) as [en|]; [|auto]. assert (B : forall l t, s_active (fold_left (add_local en) l t) = s_active t /\ s_tasks (fold_left (add_local en) l t) = s_tasks t) by (induction l as [|q l IHl]; intro t; cbn; auto; destruct (IHl (add_local en t q)) as [-> ->]; auto).
        destruct (B qs (with_entities false (on_entity pid (set_life 3) (s_groups (drop_pid pid s1))) (drop_pid pid s1))) as [-> ->]. destruct (fold_add_local en qs (with_entities false (on_entity pid (set_life 3) (s_groups (drop_pid pid s1))) (drop_pid pid s1))) as (_ & -> & ->). auto. }
      destruct U as (U1 & U2 & U3 & U4). split; [exact U1|]. split; [exact U2|]. cbn [check fst]. intros g e J. change (entities g _) with (entities g (update_group pid qs s1)) in J. destruct g; [exists e; split; [|auto 9]; cbn in *; congruence|]. cbn [entities] in *. destruct U4 as [U4|U4]; rewrite U4 in J; [exists e; auto 9|]. clear U4.
      induction (s_groups s1) as [|x r IH]; cbn in J; [destruct J|]. destruct (e_pid x =? pid) eqn:P.
      * apply Z.eqb_eq in P. destruct J as [<-|J]; [exists x; split; [now left|]; cbn; split; [auto|]; split; [auto|]; split; [lia|]; intro; right; exists qs; now rewrite P|exists e; split; [now right|auto 9]].
      * destruct J as [<-|J]; [exists x; split; [now left|auto 9]|]. destruct (IH J) as (e' & X & Y). exists e'. split; [now right|auto 9].
  - exists s, [], [Told pid]. split; [auto|]. split; [auto|]. split; [intros e [<-|[]]; reflexivity|]. split; [auto|]. split; [auto|]. intros g e J. exists e. split; [|auto 9]. destruct g; cbn in *; apply filter_In in J; tauto.
  - cbn [step]. rewrite bind_fst, bind_snd. set (s1 := fst (coordinate (MDead pid) s)). exists s1, (snd (coordinate (MDead pid) s)), []. split; [right; eexists; split; reflexivity|]. split; [auto|]. split; [intros e []|]. split; [auto|]. split; [auto|]. intros g e J. exists e. split; [|auto 9]. destruct g; cbn in *; apply filter_In in J; tauto.
  - exists s, [], []. split; [auto|]. split; [auto|]. split; [intros e []|]. split; [auto|]. split; [auto|]. apply ID; auto.
  - exists s, [], (snd (step Idle s)). split; [auto|]. split; [auto|]. cbn [step]. destruct (s_run s); [destruct (ready s)| |]; cbn [fst snd]; (split; [|split; [reflexivity|split; [reflexivity|apply ID; auto]]]); try (intros e []; fail). intros e [<-|[]]. reflexivity.
  - exists s, [], []. split; [auto|]. split; [auto|]. split; [intros e []|]. split; [auto|]. split; [auto|]. apply ID; auto.
Qed.

(* ---- the updates are told of ---- *)
Definition is_tell (p k : Z) (t : task) : bool := match t with TTell p' k' => (p' =? p) && (k' =? k) | _ => false end.
Definition is_update (p k : Z) (i : input) : bool := match i with Update p' k' _ => (p' =? p) && (k' =? k) | _ => false end.
Definition told (p k : Z) (n : nat) (_ : state) (E : list effect) (T : list task) : Prop := (count (is_upd p k) E + count (is_tell p k) T = n)%nat.
Lemma count_none {A} (f : A -> bool) l : (forall x, In x l -> f x = false) -> count f l = 0%nat.
Proof. apply count_zero. Qed.
Lemma count_cons {A} (f : A -> bool) x l : count f (x :: l) = ((if f x then 1 else 0) + count f l)%nat.
Proof. unfold count. cbn. destruct (f x); reflexivity. Qed.
Lemma told_keeps p k n : keeps (told p k n).
Proof.
  split; [|auto]. intros s E t T H. unfold told in *. rewrite count_app. rewrite count_cons in H. assert (X : count (is_upd p k) (snd (fst (start t s))) = if is_tell p k t then 1%nat else 0%nat); [|lia].
  destruct t as [f l|f l|f l|p' k']; cbn [start].
  - pose proof (spawn_facts f l s) as F. destruct (spawn f l s) as [[s' ev] ps]. destruct F as (_ & F & _). cbn. apply count_none. intros e J. destruct (F e J) as (c & pid & _ & -> & _). reflexivity.
  - cbn. apply count_none. intros e J. apply in_map_iff in J as (x & <- & _). reflexivity.
  - cbn. apply count_none. intros e J. apply in_map_iff in J as (x & <- & J). apply in_flat_map in J as (c & _ & J). unfold modify_one in J. destruct (find _ _); [|destruct J]. destruct J as [<-|[]]. reflexivity.
  - cbn. unfold count. cbn. destruct (_ && _); reflexivity.
Qed.
Lemma tasks_no_tell cur m p k : count (is_tell p k) (tasks_of cur m) = 0%nat.
Proof.
  apply count_none. intros t J. unfold tasks_of in J. repeat (apply in_app_iff in J as [J|J]); unfold task_of in J; match type of J with In _ (match ?x with _ => _ end) => destruct x; destruct J as [<-|[]] || destruct J; reflexivity end.
Qed.
Definition still_upd (ev : list effect) : Prop := forall e, In e ev -> acts e = false.
Lemma acts_upd p k ev : still_upd ev -> count (is_upd p k) ev = 0%nat.
Proof. intro H. apply count_none. intros e J. specialize (H e J). destruct e; auto; discriminate. Qed.
Lemma reach_idle s h : reach s h -> idle_ok s.
Proof. intro R. destruct (reach_tinv s h R) as [T _]. exact (t_idle _ _ _ T). Qed.
Lemma shutdown_effects s e : In e (snd (discard_all (with_run Down s))) -> acts e = false.
Proof. cbn. intro J. apply in_flat_map in J as (l & _ & J). apply absent_in in J as [_ ->]. reflexivity. Qed.
Lemma count_nil {A} (f : A -> bool) : count f [] = 0%nat.
Proof. reflexivity. Qed.
Lemma reach_told s h p k : reach s h -> (count (is_upd p k) (effects h) + count (is_tell p k) (s_tasks s))%nat = count (is_update p k) (inputs h).
Proof.
  induction 1 as [|s h i R IH Po]; [reflexivity|]. rewrite effects_snoc, inputs_snoc, !count_app, count_cons, count_nil. destruct (asks i) eqn:A.
  - destruct i; try discriminate.
    + cbn [step is_update]. unfold conform. destruct (then_all_keeps (told p k (count (is_update p k) (inputs h))) (tasks_of (Model [] []) m) [] s (effects h) (told_keeps _ _ _) (reach_idle _ _ R)) as [H _]; [unfold told; rewrite app_nil_r, count_app, tasks_no_tell; lia|]. unfold told in H. rewrite app_nil_r, count_app in H. lia.
    + cbn [step]. rewrite bind_fst, bind_snd. unfold conform. set (x := (if is_update p k (Update p0 k0 m) then 1 else 0)%nat).
      destruct (then_all_keeps (told p k (count (is_update p k) (inputs h) + x)) (tasks_of (current s) m) [TTell p0 k0] s (effects h) (told_keeps _ _ _) (reach_idle _ _ R)) as [H1 I1]; [unfold told; rewrite !count_app, tasks_no_tell, count_cons, count_nil; change (is_tell p k (TTell p0 k0)) with (is_update p k (Update p0 k0 m)); fold x; lia|].
      destruct (andthen_keeps _ _ [] _ _ (told_keeps p k (count (is_update p k) (inputs h) + x)) I1 H1) as [H2 _]. unfold told in H2. rewrite app_nil_r in H2. rewrite !count_app in H2. rewrite !count_app. lia.
    + cbn [step]. rewrite bind_fst, bind_snd. unfold conform. set (s1 := fst (discard_all (with_run Down s))). set (ev1 := snd (discard_all (with_run Down s))).
      destruct (then_all_keeps (told p k (count (is_update p k) (inputs h))) (tasks_of (current s1) (Model [] [])) [] s1 (effects h ++ ev1) (told_keeps _ _ _) (reach_idle _ _ R)) as [H _]; [unfold told; rewrite app_nil_r, !count_app, tasks_no_tell, (acts_upd p k ev1) by (intros e J; eapply shutdown_effects; eauto); cbn [s1 discard_all fst with_lookups with_run s_tasks]; lia|].
      unfold told in H. rewrite app_nil_r, !count_app in H. rewrite !count_app. cbn [is_update]. lia.
  - destruct (frame i s A) as (s1 & ev1 & ev2 & C & -> & N & _ & -> & _). rewrite count_app, (acts_upd p k ev2 N). assert (is_update p k i = false) as X by (destruct i; auto; discriminate). rewrite X. destruct C as [[-> ->]|(m & -> & ->)]; [rewrite count_nil; lia|].
    pose proof (coordinate_keeps (told p k (count (is_update p k) (inputs h))) m s (effects h) (told_keeps _ _ _) IH) as H. unfold told in H. rewrite count_app in H. lia.
Qed.
Lemma update_once s h p k : reach s h -> (count (is_update p k) (inputs h) <= 1)%nat.
Proof.
  induction 1 as [|s h i R IH Po]; [cbn; lia|]. rewrite inputs_snoc, count_app, count_cons, count_nil. destruct (is_update p k i) eqn:X; [|lia]. destruct i; try discriminate. cbn in X, Po. apply andb_prop in X as [X1 X2]. apply Z.eqb_eq in X1, X2. subst.
  destruct Po as (_ & _ & _ & Po). assert (count (is_update p k) (inputs h) = 0)%nat; [|lia]. apply count_none. intros i J. destruct i; auto. cbn. destruct (p0 =? p) eqn:Y, (k0 =? k) eqn:Z; auto. apply Z.eqb_eq in Z. subst. exfalso. eapply Po; eauto.
Qed.
Lemma upd_in p k E : (0 < count (is_upd p k) E)%nat <-> In (Updated p k) E.
Proof. rewrite count_pos. split. - intros (e & J & X). destruct e; try discriminate. cbn in X. apply andb_prop in X as [X1 X2]. apply Z.eqb_eq in X1, X2. now subst. - intro J. exists (Updated p k). split; [auto|]. cbn. now rewrite !Z.eqb_refl. Qed.
Lemma tell_in p k T : (0 < count (is_tell p k) T)%nat <-> In (TTell p k) T.
Proof. rewrite count_pos. split. - intros (e & J & X). destruct e; try discriminate. cbn in X. apply andb_prop in X as [X1 X2]. apply Z.eqb_eq in X1, X2. now subst. - intro J. exists (TTell p k). split; [auto|]. cbn. now rewrite !Z.eqb_refl. Qed.
Lemma update_in p k I : (0 < count (is_update p k) I)%nat <-> exists m, In (Update p k m) I.
Proof. rewrite count_pos. split. - intros (e & J & X). destruct e; try discriminate. cbn in X. apply andb_prop in X as [X1 X2]. apply Z.eqb_eq in X1, X2. subst. eauto. - intros (m & J). exists (Update p k m). split; [auto|]. cbn. now rewrite !Z.eqb_refl. Qed.
Lemma updated_asked s h p k : reach s h -> In (Updated p k) (effects h) -> exists m, In (Update p k m) (inputs h).
Proof. intros R J. apply update_in. apply upd_in in J. pose proof (reach_told s h p k R). lia. Qed.
Lemma updated_once s h p k : reach s h -> (count (is_upd p k) (effects h) <= 1)%nat.
Proof. intro R. pose proof (reach_told s h p k R). pose proof (update_once s h p k R). lia. Qed.
Lemma answered_tells s h : reach s h -> answered h <-> forall p k, ~ In (TTell p k) (s_tasks s).
Proof.
  intro R. split.
  - intros A p k J. apply tell_in in J. pose proof (reach_told s h p k R). pose proof (update_once s h p k R). destruct (proj1 (update_in p k (inputs h))) as (m & U); [lia|]. specialize (A p k m U). apply upd_in in A. lia.
  - intros N p k m U. apply upd_in. pose proof (reach_told s h p k R). assert (count (is_tell p k) (s_tasks s) = 0)%nat. { destruct (count (is_tell p k) (s_tasks s)) eqn:X; auto. exfalso. apply (N p k). apply tell_in. lia. } assert (0 < count (is_update p k) (inputs h))%nat by (apply update_in; eauto). lia.
Qed.
(* ---- a modification is before the answer ---- *)
Definition mods_told (T : list task) : Prop := forall a f l b, T = a ++ TModify f l :: b -> exists p k, In (TTell p k) b.
Lemma mods_suffix a T : mods_told (a ++ T) -> mods_told T.
Proof. intros H b f l c ->. apply (H (a ++ b) f l). now rewrite app_assoc. Qed.
Lemma split_app_l {A} (x y : list A) a e b : x ++ y = a ++ e :: b -> (exists b', x = a ++ e :: b' /\ b = b' ++ y) \/ exists a', a = x ++ a' /\ y = a' ++ e :: b.
Proof.
  revert a. induction x as [|z x IH]; intros a H; cbn in H; [right; exists a; auto|]. destruct a as [|w a]; cbn in H; injection H as -> H; [left; exists x; auto|]. destruct (IH a H) as [(b' & -> & ->)|(a' & -> & ->)]; [left; exists b'; auto|right; exists a'; auto].
Qed.
Lemma mods_app a b : mods_told a -> mods_told b -> mods_told (a ++ b).
Proof. intros A B x f l y H. apply split_app_l in H as [(b' & -> & ->)|(a' & -> & ->)]; [|eauto]. destruct (A x f l b' eq_refl) as (p & k & J). exists p, k. apply in_or_app. auto. Qed.
Lemma mods_last T p k : mods_told (T ++ [TTell p k]).
Proof. intros x f l y H. apply split_app_l in H as [(b' & -> & ->)|(a' & -> & H)]; [exists p, k; apply in_or_app; right; now left|]. destruct a' as [|? [|]]; discriminate. Qed.
Lemma mods_none T : (forall f l, ~ In (TModify f l) T) -> mods_told T.
Proof. intros N a f l b ->. exfalso. apply (N f l). apply in_or_app. right. now left. Qed.
Lemma in_tasks_of t cur m : In t (tasks_of cur m) <->
  (t = TRemove true (removed (m_forwards cur) (m_forwards m)) /\ removed (m_forwards cur) (m_forwards m) <> []) \/ (t = TRemove false (removed (m_groups cur) (m_groups m)) /\ removed (m_groups cur) (m_groups m) <> [])
  \/ (t = TAdd false (added (m_groups cur) (m_groups m)) /\ added (m_groups cur) (m_groups m) <> []) \/ (t = TAdd true (added (m_forwards cur) (m_forwards m)) /\ added (m_forwards cur) (m_forwards m) <> [])
  \/ (t = TModify true (modified (m_forwards cur) (m_forwards m)) /\ modified (m_forwards cur) (m_forwards m) <> []) \/ (t = TModify false (modified (m_groups cur) (m_groups m)) /\ modified (m_groups cur) (m_groups m) <> []).
Proof.
  assert (X : forall f l, In t (task_of f l) <-> t = f l /\ l <> []). { intros f l. unfold task_of. destruct l; cbn; [intuition congruence|]. split; [intros [<-|[]]; split; [auto|discriminate]|intros [-> _]; auto]. }
  unfold tasks_of. rewrite !in_app_iff, !X. tauto.
Qed.
Lemma no_mods_begin m f l : ~ In (TModify f l) (tasks_of (Model [] []) m).
Proof.
  assert (X : forall w, modified [] w = []) by (intro w; unfold modified; induction (differ [] w); cbn; auto).
  intro J. apply in_tasks_of in J as [[J _]|[[J _]|[[J _]|[[J _]|[[J N]|[J N]]]]]]; try discriminate; cbn in N; rewrite X in N; congruence.
Qed.
Lemma no_mods_end cur f l : ~ In (TModify f l) (tasks_of cur (Model [] [])).
Proof. intro J. apply in_tasks_of in J as [[J _]|[[J _]|[[J _]|[[J _]|[[J N]|[J N]]]]]]; try discriminate; apply N; reflexivity. Qed.
Lemma left_same s s' : s_active s' = s_active s -> s_tasks s' = s_tasks s -> left_of s' = left_of s.
Proof. unfold left_of. now intros -> ->. Qed.
Lemma reach_mods s h : reach s h -> mods_told (left_of s).
Proof.
  induction 1 as [|s h i R IH Po]; [apply mods_none; intros f l []|]. destruct (asks i) eqn:A.
  - destruct i; try discriminate; cbn [step].
    + unfold conform. destruct (then_all_left (tasks_of (Model [] []) m) s (reach_idle _ _ R)) as [(a & H) _]. apply (mods_suffix a). rewrite <- H. apply mods_app; auto. apply mods_none. apply no_mods_begin.
    + rewrite bind_fst. unfold conform. destruct (then_all_left (tasks_of (current s) m) s (reach_idle _ _ R)) as [(a & H) I]. destruct (andthen_left (TTell p k) _ I) as (b & H'). apply (mods_suffix b). rewrite <- H'. apply (mods_suffix a). rewrite app_assoc, <- H, <- app_assoc. apply mods_app; auto. apply mods_last.
    + rewrite bind_fst. unfold conform. set (s1 := fst (discard_all (with_run Down s))). destruct (then_all_left (tasks_of (current s1) (Model [] [])) s1 (reach_idle _ _ R)) as [(a & H) _]. apply (mods_suffix a). rewrite <- H. apply mods_app; auto. apply mods_none. apply no_mods_end.
  - destruct (frame i s A) as (s1 & ev1 & ev2 & C & _ & N & E1 & E2 & _). rewrite (left_same s1) by auto. destruct C as [[-> _]|(m & -> & _)]; auto. destruct (coordinate_left m s) as (a & X). apply (mods_suffix a). now rewrite <- X.
Qed.
(* when all is settled and answered, there is nothing to do *)
Lemma settled_idle s h : reach s h -> settled h -> answered h -> s_active s = None /\ s_tasks s = [].
Proof.
  intros R S A. destruct (reach_tinv s h R) as [TI _]. enough (X : s_active s = None) by (split; [auto|apply (t_idle _ _ _ TI X)]). destruct (s_active s) as [[t ps]|] eqn:X; auto. exfalso. destruct (t_act _ _ _ TI t ps X) as [N I]. destruct ps as [|p r]; [congruence|]. specialize (I p (or_introl eq_refl)). destruct t as [f l|f l|f l|p' k'].
  - destruct I as ((c & J) & NC & ND). specialize (S _ J). cbn in S. destruct S as [(q & S)|S]; [eapply NC; eauto|auto].
  - destruct I as ((q & J) & ND). specialize (S _ J). cbn in S. auto.
  - pose proof (reach_mods s h R) as M. unfold left_of in M. rewrite X in M. destruct (M [] f l (s_tasks s) eq_refl) as (p' & k' & J). apply (proj1 (answered_tells s h R) A p' k' J).
  - exact I.
Qed.

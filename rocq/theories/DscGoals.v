(* The discovery: the rediscoveries and the updates that are held. *)
From Coq Require Import ZArith List Bool Lia.
From Verif Require Import DscModel DscSpec DscProofs DscHold.
Import ListNotations.
Local Open Scope Z_scope.

(* ---- the rediscoveries are counted ---- *)
Definition rkeyb (K : Z -> Z -> bool) (e : effect) : bool := match e with Rediscovered p k _ => K p k | _ => false end.
Definition nR (K : Z -> Z -> bool) (l : list (Z * Z)) : nat := count (fun x => K (fst x) (snd x)) l.
Definition aR K (l : list effect) : nat := count (rkeyb K) l.
Arguments nR : simpl never.
Arguments aR : simpl never.
Lemma nR_nil K : nR K [] = 0%nat. Proof. reflexivity. Qed.
Lemma aR_nil K : aR K [] = 0%nat. Proof. reflexivity. Qed.
Lemma nR_app K a b : nR K (a ++ b) = (nR K a + nR K b)%nat. Proof. apply count_app. Qed.
Lemma aR_app K a b : aR K (a ++ b) = (aR K a + aR K b)%nat. Proof. apply count_app. Qed.
Definition job_r (d : disc) : list (Z * Z) := match d_job d with JRedisc p k => [(p, k)] | _ => [] end.
Definition goal_r (g : goal) : list (Z * Z) := match g with GRedisc p k => [(p, k)] | _ => [] end.
Definition rheld (s : state) : nat -> (Z -> Z -> bool) -> nat := fun n K => (nR K (flat_map job_r (s_disc s)) + nR K (flat_map (fun x => goal_r (k_goal x)) (s_known s)) + n)%nat.
Definition mass K (s : state) : nat := rheld s 0 K.
Lemma mass_eq K s : mass K s = (nR K (flat_map job_r (s_disc s)) + nR K (flat_map (fun x => goal_r (k_goal x)) (s_known s)))%nat.
Proof. unfold mass, rheld. lia. Qed.
Lemma aR_none K l : (forall e, In e l -> rkeyb K e = false) -> aR K l = 0%nat.
Proof. apply count_zero. Qed.
Lemma aR_answers K c l : aR K (map (answer c) l) = 0%nat.
Proof. apply aR_none. intros e I. apply in_map_iff in I as (r & <- & _). auto. Qed.
Lemma aR_finish K d : aR K (finish d) = nR K (job_r d).
Proof. unfold finish, job_r. destruct (d_job d) as [l|p k]; [apply aR_answers|]. unfold aR, nR. rewrite !count_cons. reflexivity. Qed.
Lemma aR_asks K f (ws : list (Z * proc)) : (forall p k, rkeyb K (f p k) = false) -> aR K (map (fun x : Z * proc => f (snd x) (fst x)) ws) = 0%nat.
Proof. intro H. apply aR_none. intros e I. apply in_map_iff in I as (x & <- & _). auto. Qed.
Lemma add_disc_mass K d s : (mass K (fst (add_disc d s)) + aR K (snd (add_disc d s)) = mass K s + nR K (job_r d))%nat.
Proof. unfold add_disc. destruct (all_failed (d_wait d)); cbn [fst snd]; [rewrite aR_finish; lia|]. rewrite !mass_eq. cbn. rewrite flat_map_app, nR_app. cbn. rewrite app_nil_r, aR_nil. lia. Qed.
Lemma aggregate_mass K reqs c s : (mass K (fst (aggregate reqs c s)) + aR K (snd (aggregate reqs c s)) = mass K s)%nat.
Proof.
  unfold aggregate. destruct reqs as [|r l]; [cbn; rewrite aR_nil; lia|]. set (w := normal _ _). set (X := match w with [] => _ | _ => _ end). destruct X as [[s1 ev] ws] eqn:E.
  assert (H : mass K s1 = mass K s /\ aR K ev = 0%nat).
  { unfold X in E. destruct w as [|n w']; [injection E as <- <- <-; auto|]. pose proof (ask_spec (fun p k => Ask p k (n :: w')) (with_ability ADiscover s) s) as H. rewrite E in H. destruct H as (A & _ & B & _). rewrite A, B. split; [auto|]. apply (aR_asks K (fun p k => Ask p k (n :: w'))). auto. }
  destruct H as [H1 H2]. destruct (add_disc _ s1) as [s2 ev2] eqn:D. cbn [fst snd]. pose proof (add_disc_mass K (Disc (map (fun x => (x, false)) ws) c w (JAnswer (r :: l))) s1) as F. rewrite D in F. cbn [fst snd job_r d_job] in F. rewrite nR_nil in F. rewrite aR_app. lia.
Qed.
Lemma look_done_mass K l s : (mass K (fst (look_done l s)) + aR K (snd (look_done l s)) = mass K s)%nat.
Proof.
  unfold look_done. destruct (negb (r_extend (l_req l))); [cbn; unfold aR; rewrite count_cons; cbn; lia|]. destruct (includes _ _); [cbn; unfold aR; rewrite count_cons; cbn; lia|]. destruct (accumulating s); [|apply aggregate_mass].
  cbn. rewrite !mass_eq. cbn. destruct (s_timer s); unfold aR; cbn; lia.
Qed.
Lemma each_mass {A} K (g : A -> state -> state * list effect) (n : A -> nat) l : (forall x s, mass K (fst (g x s)) + aR K (snd (g x s)) = mass K s + n x)%nat ->
  forall s, (mass K (fst (each g l s)) + aR K (snd (each g l s)) = mass K s + list_sum (map n l))%nat.
Proof.
  intro G. induction l as [|x l IH]; intro s; cbn [each map]; [cbn; rewrite aR_nil; lia|]. change (list_sum (n x :: map n l)) with (n x + list_sum (map n l))%nat. specialize (G x s). destruct (g x s) as [s1 e1]. specialize (IH s1). destruct (each g l s1) as [s2 e2]. cbn [fst snd] in *. rewrite aR_app. lia.
Qed.
Lemma sum_zero {A} (l : list A) : list_sum (map (fun _ => 0%nat) l) = 0%nat.
Proof. induction l; auto. Qed.
Lemma look_failed_mass K f s : (mass K (fst (look_failed f s)) + aR K (snd (look_failed f s)) = mass K s)%nat.
Proof. unfold look_failed. cbv zeta. rewrite (each_mass K look_done (fun _ => 0%nat)); [|intros; rewrite look_done_mass; lia]. rewrite sum_zero. rewrite !mass_eq. cbn. lia. Qed.
Lemma lookup_mass K r s : (mass K (fst (lookup r s)) + aR K (snd (lookup r s)) = mass K s)%nat.
Proof.
  unfold lookup. pose proof (ask_spec (fun p k => AskLook p k (negb (r_extend r)) (r_want r)) (with_ability ALookup s) s) as H. destruct (ask _ _ s) as [[s1 ev] ws]. destruct H as (A & _ & B & _).
  assert (E : aR K ev = 0%nat). { rewrite B. apply (aR_asks K (fun p k => AskLook p k (negb (r_extend r)) (r_want r))). auto. } assert (H1 : mass K s1 = mass K s) by (rewrite A; auto).
  destruct ws as [|w ws].
  - destruct (look_done (Look [] [] r) s1) as [s2 ev2] eqn:D. cbn [fst snd]. pose proof (look_done_mass K (Look [] [] r) s1) as F. rewrite D in F. cbn [fst snd] in F. rewrite aR_app. lia.
  - cbn [fst snd]. rewrite app_nil_r, E. change (mass K s1 + 0 = mass K s)%nat. lia.
Qed.
Lemma look_reply_mass K k c s : (mass K (fst (look_reply k c s)) + aR K (snd (look_reply k c s)) = mass K s)%nat.
Proof.
  unfold look_reply. cbv zeta. destruct (find _ (s_look s)) as [l|]; [|cbn; rewrite aR_nil; lia]. cbn [l_wait]. destruct (drop_wait k (l_wait l)) as [|w ws]; [rewrite look_done_mass; reflexivity|]. cbn [fst snd]. rewrite aR_nil, !mass_eq. cbn. lia.
Qed.
Lemma disc_entry_mass K k c cf d : (nR K (match fst (disc_entry k c cf d) with Some d' => job_r d' | None => [] end) + aR K (snd (disc_entry k c cf d)) = nR K (job_r d))%nat.
Proof.
  unfold disc_entry. destruct (d_job d) as [l|p q] eqn:J.
  - unfold job_r at 2. rewrite J. cbv zeta. destruct (filter _ l) as [|r rest] eqn:R; [cbn [fst snd]; rewrite aR_answers; reflexivity|]. destruct (all_failed _); cbn [fst snd].
    + rewrite aR_app, aR_answers, aR_finish. reflexivity. + rewrite aR_answers. reflexivity.
  - cbv zeta. destruct (all_failed _); cbn [fst snd].
    + rewrite aR_finish. unfold job_r. cbn. rewrite J. reflexivity. + unfold job_r. cbn. rewrite J, aR_nil. lia.
Qed.
Lemma disc_reply_mass K k c cf l : (nR K (flat_map job_r (fst (disc_reply k c cf l))) + aR K (snd (disc_reply k c cf l)) = nR K (flat_map job_r l))%nat.
Proof.
  induction l as [|d l IH]; cbn [disc_reply flat_map]; [reflexivity|]. destruct (waits_disc k d).
  - pose proof (disc_entry_mass K k c cf d) as H. destruct (disc_entry k c cf d) as [[d'|] ev]; cbn [fst snd flat_map] in *; rewrite !nR_app; [lia|]. rewrite nR_nil in H. lia.
  - destruct (disc_reply k c cf l) as [r ev]. cbn [fst snd flat_map] in *. rewrite !nR_app. lia.
Qed.
Lemma disc_failed_mass K f l : (nR K (flat_map job_r (fst (disc_failed f l))) + aR K (snd (disc_failed f l)) = nR K (flat_map job_r l))%nat.
Proof.
  unfold disc_failed. cbn. induction l as [|d l IH]; [reflexivity|]. cbn [map filter flat_map]. rewrite aR_app. change (job_r d) with (job_r (fail_disc f d)). destruct (all_failed (d_wait (fail_disc f d))); cbn [negb flat_map]; rewrite ?nR_app.
  - rewrite aR_finish. lia. - rewrite aR_nil. lia.
Qed.
Lemma known_done_mass K x s : (mass K (fst (known_done x s)) + aR K (snd (known_done x s)) = mass K s + nR K (goal_r (k_goal x)))%nat.
Proof.
  unfold known_done. destruct (k_goal x) as [p k|direct implicit]; cbn [goal_r].
  - set (w := union _ _). pose proof (ask_spec (fun p k => Ask p k w) (with_ability ADiscover s) s) as H. destruct (ask _ _ s) as [[s1 ev] ws]. destruct H as (A & _ & B & _). assert (H1 : mass K s1 = mass K s) by (rewrite A; auto).
    assert (E : aR K ev = 0%nat). { rewrite B. apply (aR_asks K (fun p k => Ask p k w)). auto. }
    pose proof (add_disc_mass K (Disc (map (fun x => (x, false)) ws) [] [] (JRedisc p k)) s1) as F. destruct (add_disc _ s1) as [s2 ev2]. cbn [fst snd] in *. change (job_r _) with [(p, k)] in F. rewrite aR_app. lia.
  - cbv zeta. cbn [fst snd]. rewrite aR_none; [rewrite nR_nil; lia|]. intros e I. apply in_app_iff in I as [I|I].
    + destruct (union _ _); [destruct I|]. apply in_flat_map in I as (p & _ & I). unfold send in I. destruct (gone p s); [destruct I|]. destruct I as [<-|[]]. auto.
    + apply in_flat_map in I as (p & _ & I). unfold send in I. destruct (gone (p_ipc p) s); [destruct I|]. destruct I as [<-|[]]. auto.
Qed.
Lemma fetch_mass K g s : (mass K (fst (fetch g s)) + aR K (snd (fetch g s)) = mass K s + nR K (goal_r g))%nat.
Proof.
  unfold fetch. pose proof (ask_spec AskKnown (with_ability AKnown s) s) as H. destruct (ask _ _ s) as [[s1 ev] ws]. destruct H as (A & _ & B & _). assert (H1 : mass K s1 = mass K s) by (rewrite A; auto).
  assert (E : aR K ev = 0%nat) by (rewrite B; apply (aR_asks K AskKnown); auto). destruct ws as [|w ws].
  - pose proof (known_done_mass K (Known [] [] g) s1) as F. destruct (known_done _ s1) as [s2 ev2]. cbn [fst snd k_goal] in *. rewrite aR_app. lia.
  - cbn [fst snd]. rewrite app_nil_r, E, !mass_eq in *. cbn. rewrite flat_map_app, nR_app. cbn. rewrite app_nil_r. lia.
Qed.
Lemma remove_first_mass K f (l : list known) x : find f l = Some x -> nR K (flat_map (fun x => goal_r (k_goal x)) l) = (nR K (goal_r (k_goal x)) + nR K (flat_map (fun x => goal_r (k_goal x)) (remove_first f l)))%nat.
Proof. induction l as [|y l IH]; cbn [find]; [discriminate|]. cbn [flat_map remove_first]. destruct (f y) eqn:F; intro H; [injection H as ->; apply nR_app|]. specialize (IH H). cbn [flat_map]. rewrite !nR_app. lia. Qed.
Lemma on_first_mass f g (l : list known) : (forall x, k_goal (g x) = k_goal x) -> flat_map (fun x => goal_r (k_goal x)) (on_first f g l) = flat_map (fun x => goal_r (k_goal x)) l.
Proof. intro G. induction l as [|y l IH]; cbn; [auto|]. destruct (f y); cbn; rewrite ?G, ?IH; auto. Qed.
Lemma known_reply_mass K k w s : (mass K (fst (known_reply k w s)) + aR K (snd (known_reply k w s)) = mass K s)%nat.
Proof.
  unfold known_reply. cbv zeta. destruct (find _ (s_known s)) as [x|] eqn:F; [|cbn; rewrite aR_nil; lia]. cbn [k_wait]. destruct (drop_wait k (k_wait x)) as [|w0 ws].
  - rewrite known_done_mass. cbn [k_goal]. rewrite !mass_eq. cbn. pose proof (remove_first_mass K _ _ _ F). lia.
  - cbn [fst snd]. rewrite aR_nil, !mass_eq. cbn. rewrite on_first_mass; [lia|auto].
Qed.
Lemma split_mass K p m (l : list known) : (forall x, k_goal (m x) = k_goal x) -> nR K (flat_map (fun x => goal_r (k_goal x)) l) = (list_sum (map (fun x => nR K (goal_r (k_goal x))) (filter p (map m l))) + nR K (flat_map (fun x => goal_r (k_goal x)) (filter (fun x => negb (p x)) (map m l))))%nat.
Proof. intro H. induction l as [|x l IH]; [auto|]. cbn [map flat_map filter]. rewrite nR_app, IH. destruct (p (m x)); cbn [negb map flat_map]; [change (list_sum (?a :: ?b)) with (a + list_sum b)%nat|rewrite nR_app]; rewrite ?H; cbn; rewrite ?H; lia. Qed.
Lemma known_failed_mass K f s : (mass K (fst (known_failed f s)) + aR K (snd (known_failed f s)) = mass K s)%nat.
Proof.
  unfold known_failed. cbv zeta. set (m := fun x => Known _ _ _). rewrite (each_mass K known_done (fun x => nR K (goal_r (k_goal x)))); [|intros; apply known_done_mass]. rewrite !mass_eq. cbn [with_known s_disc s_known]. rewrite (split_mass K (fun x => empty (k_wait x)) m (s_known s)); [lia|auto].
Qed.
Lemma failed_mass K f s : (mass K (fst (failed f s)) + aR K (snd (failed f s)) = mass K s)%nat.
Proof.
  unfold failed. set (s1 := with_providers _ s). pose proof (disc_failed_mass K f (s_disc s1)) as D. destruct (disc_failed f (s_disc s1)) as [ds ev]. rewrite bind_fst, bind_snd. cbn [fst snd] in *. rewrite bind_fst, bind_snd, !aR_app.
  pose proof (look_failed_mass K f (with_disc ds s1)) as L. pose proof (known_failed_mass K f (fst (look_failed f (with_disc ds s1)))) as N. assert (H : (mass K (with_disc ds s1) + aR K ev = mass K s)%nat) by (rewrite !mass_eq; cbn in *; lia). lia.
Qed.
Lemma timeout_mass K s : (mass K (fst (timeout s)) + aR K (snd (timeout s)) = mass K s)%nat.
Proof.
  unfold timeout. rewrite bind_fst, bind_snd, aR_app. set (X := match a_direct (s_acc s) with [] => _ | _ => _ end). pose proof (aggregate_mass K (a_api (s_acc s) ++ a_disc (s_acc s)) (a_have (s_acc s)) (fst X)) as A.
  assert (H : (mass K (fst X) + aR K (snd X) = mass K s)%nat).
  { assert (E : mass K (with_acc acc0 false s) = mass K s) by reflexivity. unfold X. destruct (a_direct (s_acc s)); [destruct (a_implicit (s_acc s))|]; try (cbn [fst snd]; rewrite aR_nil, E; lia); rewrite fetch_mass, E, nR_nil; lia. }
  lia.
Qed.
Definition arr_r (i : input) : list (Z * Z) := match i with Rediscover p k => [(p, k)] | _ => [] end.
Lemma handle_mass K i s : (mass K (fst (handle i s)) + aR K (snd (handle i s)) = mass K s + nR K (arr_r i))%nat.
Proof.
  assert (Z1 : forall e, rkeyb K e = false -> aR K [e] = 0%nat) by (intros e E; unfold aR; rewrite count_cons, E; reflexivity).
  destruct i as [d c|p k a|r|r|p k|k c|k c|k w|p w|p ds| |pid|ipc|p k c| |b|ipc]; cbn [handle arr_r]; rewrite ?nR_nil, ?Nat.add_0_r.
  - cbn. rewrite ?aR_nil, !mass_eq. cbn. lia.
  - destruct (gone _ s); cbn; [rewrite aR_nil; lia|]. rewrite Z1; [|auto]. destruct (existsb _ _); rewrite !mass_eq; cbn; lia.
  - destruct (s_down s || empty (r_want r)); [cbn; rewrite Z1; auto; lia|]. destruct (accumulating s); [|apply aggregate_mass]. cbn. rewrite !mass_eq. cbn. destruct (s_timer s); [rewrite aR_nil|rewrite Z1; auto]; lia.
  - destruct (s_down s); [cbn; rewrite Z1; auto; lia|]. apply lookup_mass.
  - rewrite fetch_mass. reflexivity.
  - pose proof (disc_reply_mass K k c (s_config s) (s_disc s)) as H. destruct (disc_reply k c (s_config s) (s_disc s)) as [ds ev]. cbn [fst snd] in *. rewrite !mass_eq. cbn. lia.
  - apply look_reply_mass.
  - apply known_reply_mass.
  - destruct (s_down s); [cbn; rewrite aR_nil; lia|]. cbn. rewrite !mass_eq. cbn. destruct (s_timer s); [rewrite aR_nil|rewrite Z1; auto]; lia.
  - destruct (_ || _); [cbn; rewrite aR_nil; lia|]. cbn. rewrite !mass_eq. cbn. destruct (s_timer s); [rewrite aR_nil|rewrite Z1; auto]; lia.
  - apply timeout_mass.
  - apply failed_mass.
  - apply failed_mass.
  - cbn [fst snd]. rewrite !mass_eq. cbn. unfold send. destruct (gone p s); [rewrite aR_nil|rewrite Z1; auto]; lia.
  - cbn. rewrite ?aR_nil, !mass_eq. cbn. lia.
  - cbn. rewrite ?aR_nil, !mass_eq. cbn. lia.
  - cbn. rewrite ?aR_nil, !mass_eq. cbn. lia.
Qed.

(* ---- the updates: each is held until what it's for is done ---- *)
Section Goals.
Variables (inGoal : goal -> Prop) (inAcc : acc -> Prop) (ok : known -> Prop) (Q : state -> list effect -> Prop).
Hypothesis acc_grows : forall a a', incl (a_direct a) (a_direct a') -> incl (a_implicit a) (a_implicit a') -> inAcc a -> inAcc a'.
Hypothesis acc_goal : forall a, inAcc a -> inGoal (GExplore (a_direct a) (a_implicit a)) /\ (a_direct a <> [] \/ a_implicit a <> []).
Hypothesis goal_done : forall x s, ok x -> inGoal (k_goal x) -> Q s (snd (known_done x s)).
Hypothesis Q_more : forall s s' a b, fixed s = fixed s' -> Q s b -> Q s' (a ++ b).
Hypothesis Q_more' : forall s a b, Q s a -> Q s (a ++ b).
Definition keeps (s : state) : Prop := inAcc (s_acc s) \/ exists x, In x (s_known s) /\ inGoal (k_goal x).
Definition calm (s s' : state) : Prop := s_known s' = s_known s /\ (incl (a_direct (s_acc s)) (a_direct (s_acc s')) /\ incl (a_implicit (s_acc s)) (a_implicit (s_acc s'))).
Lemma calm_refl s s' : s_known s' = s_known s -> s_acc s' = s_acc s -> calm s s'.
Proof. intros A B. split; [auto|]. rewrite B. split; intros x; auto. Qed.
Lemma calm_trans a b c : calm a b -> calm b c -> calm a c.
Proof. intros (A & B & C) (A' & B' & C'). split; [congruence|]. split; eapply incl_tran; eauto. Qed.
Lemma calm_keeps s s' : calm s s' -> keeps s -> keeps s'.
Proof. intros (A & B & C) [X|X]; [left; now apply (acc_grows (s_acc s))|right; rewrite A; auto]. Qed.
Lemma ask_calm f ps s : calm s (fst (fst (ask f ps s))).
Proof. pose proof (ask_spec f ps s) as H. destruct (ask f ps s) as [[s' ev] ws]. destruct H as (A & _). cbn. rewrite A. apply calm_refl; auto. Qed.
Lemma add_disc_calm d s : calm s (fst (add_disc d s)).
Proof. unfold add_disc. destruct (all_failed _); apply calm_refl; auto. Qed.
Lemma aggregate_calm reqs c s : calm s (fst (aggregate reqs c s)).
Proof.
  unfold aggregate. destruct reqs as [|r l]; [apply calm_refl; auto|]. set (w := normal _ _). set (X := match w with [] => _ | _ => _ end).
  assert (E : calm s (fst (fst X))) by (unfold X; destruct w; [apply calm_refl; auto|apply ask_calm]). destruct X as [[s1 ev] ws]. cbn [fst] in E. pose proof (add_disc_calm (Disc (map (fun x => (x, false)) ws) c w (JAnswer (r :: l))) s1) as F. destruct (add_disc _ s1) as [s2 ev2]. cbn [fst] in *. now apply (calm_trans _ s1).
Qed.
Lemma look_done_calm l s : calm s (fst (look_done l s)).
Proof. unfold look_done. destruct (negb _); [apply calm_refl; auto|]. destruct (includes _ _); [apply calm_refl; auto|]. destruct (accumulating s); [|apply aggregate_calm]. split; [auto|]. split; intros x; auto. Qed.
Lemma lookup_calm r s : calm s (fst (lookup r s)).
Proof.
  unfold lookup. pose proof (ask_calm (fun p k => AskLook p k (negb (r_extend r)) (r_want r)) (with_ability ALookup s) s) as E. destruct (ask _ _ s) as [[s1 ev] ws]. cbn [fst] in E. destruct ws; [|exact E].
  pose proof (look_done_calm (Look [] [] r) s1) as F. destruct (look_done _ s1). cbn [fst] in *. now apply (calm_trans _ s1).
Qed.
Lemma look_reply_calm k c s : calm s (fst (look_reply k c s)).
Proof. unfold look_reply. cbv zeta. destruct (find _ _); [|apply calm_refl; auto]. destruct (l_wait _); [|apply calm_refl; auto]. eapply calm_trans; [|apply look_done_calm]. apply calm_refl; auto. Qed.
Lemma each_calm {A} (g : A -> state -> state * list effect) l : (forall x s, calm s (fst (g x s))) -> forall s, calm s (fst (each g l s)).
Proof. intro G. induction l as [|x l IH]; intro s; cbn [each]; [apply calm_refl; auto|]. specialize (G x s). destruct (g x s) as [s1 e1]. specialize (IH s1). destruct (each g l s1). cbn [fst] in *. now apply (calm_trans _ s1). Qed.
Lemma look_failed_calm f s : calm s (fst (look_failed f s)).
Proof. unfold look_failed. cbv zeta. eapply calm_trans; [|apply each_calm; intros; apply look_done_calm]. apply calm_refl; auto. Qed.
Lemma known_done_calm x s : calm s (fst (known_done x s)).
Proof.
  unfold known_done. destruct (k_goal x) as [p k|]; [|apply calm_refl; auto]. set (w := union _ _). pose proof (ask_calm (fun p k => Ask p k w) (with_ability ADiscover s) s) as E. destruct (ask _ _ s) as [[s1 ev] ws]. cbn [fst] in E.
  pose proof (add_disc_calm (Disc (map (fun x => (x, false)) ws) [] [] (JRedisc p k)) s1) as F. destruct (add_disc _ s1). cbn [fst] in *. now apply (calm_trans _ s1).
Qed.
Definition cause' (g : goal) : input := match g with GRedisc p k => Rediscover p k | GExplore _ _ => Timeout end.
Definition next (s : state) (r : state * list effect) : Prop := keeps (fst r) \/ Q s (snd r).
Lemma each_Q l x s : ok x -> In x l -> inGoal (k_goal x) -> Q s (snd (each known_done l s)).
Proof.
  intros Ox I G. revert s. induction l as [|y l IH]; [destruct I|]. intro s. cbn [each]. pose proof (known_done_fixed y s) as F. destruct (known_done y s) as [s1 e1] eqn:K. cbn [fst] in F. specialize (IH). destruct (each known_done l s1) as [s2 e2] eqn:E. cbn [snd].
  destruct I as [->|I]; [|apply (Q_more s1); [auto|]; specialize (IH I s1); now rewrite E in IH]. pose proof (goal_done x s Ox G) as H. rewrite K in H. cbn in H. now apply Q_more'.
Qed.
Lemma fetch_next g s : (snd (ask AskKnown (with_ability AKnown s) s) = [] -> ok (Known [] [] g)) -> (keeps s \/ inGoal g) -> next s (fetch g s).
Proof.
  intros Og X. unfold fetch. pose proof (ask_calm AskKnown (with_ability AKnown s) s) as E. pose proof (ask_fixed AskKnown (with_ability AKnown s) s) as F. destruct (ask _ _ s) as [[s1 ev] ws]. cbn [fst snd] in E, F, Og. destruct ws as [|w ws].
  - specialize (Og eq_refl). pose proof (known_done_calm (Known [] [] g) s1) as C. pose proof (goal_done (Known [] [] g) s1 Og) as G. destruct (known_done _ s1) as [s2 ev2]. cbn [fst snd k_goal] in *. unfold next. cbn [fst snd]. destruct X as [X|X]; [left; apply (calm_keeps s); [now apply (calm_trans _ s1)|auto]|]. right. apply (Q_more s1); auto.
  - left. cbn [fst]. destruct X as [X|X].
    + apply (calm_keeps s s1) in X; auto. destruct X as [X|(x & I & G)]; [left; auto|right]. exists x. cbn. rewrite in_snoc. auto.
    + right. exists (Known (w :: ws) [] g). cbn. rewrite in_snoc. auto.
Qed.
Lemma find_in_or {A} (f : A -> bool) (g : A -> A) l x y : find f l = Some x -> In y l -> y = x \/ (In y (remove_first f l) /\ In y (on_first f g l)).
Proof.
  induction l as [|z l IH]; cbn; [discriminate|]. destruct (f z) eqn:F; intros E I.
  - injection E as ->. destruct I as [->|I]; [auto|]. right. split; [auto|]. cbn. auto.
  - destruct I as [->|I]; [right; cbn; auto|]. destruct (IH E I) as [->|[A1 A2]]; [auto|right; cbn; auto].
Qed.
Lemma find_on {A} (f : A -> bool) (g : A -> A) l x : find f l = Some x -> In (g x) (on_first f g l).
Proof. induction l as [|z l IH]; cbn; [discriminate|]. destruct (f z) eqn:F; intro E; [injection E as ->; cbn; auto|cbn; auto]. Qed.
Lemma known_reply_next k w s : (forall x, In x (s_known s) -> In k (map fst (k_wait x)) -> drop_wait k (k_wait x) = [] -> ok (Known [] (union (k_have x) w) (k_goal x))) -> keeps s -> next s (known_reply k w s).
Proof.
  intros Ox X. unfold known_reply. cbv zeta. destruct (find _ (s_known s)) as [x|] eqn:F; [|left; auto]. set (g := fun x => Known _ _ _). cbn [k_wait]. destruct (drop_wait k (k_wait x)) as [|w0 ws] eqn:W.
  - destruct X as [X|(y & I & G)]; [left; eapply calm_keeps; [apply known_done_calm|]; left; auto|]. destruct (find_in_or _ g _ _ _ F I) as [->|[A _]].
    + right. pose proof (goal_done (Known [] (union (k_have x) w) (k_goal x)) (with_known (remove_first (fun x => waits k (k_wait x)) (s_known s)) s)) as H. apply find_some in F as [F1 F2]. unfold waits in F2. apply existsb_exists in F2 as (z & F2 & F3). apply Z.eqb_eq in F3. specialize (H (Ox x F1 ltac:(rewrite <- F3; now apply in_map) W) G). rewrite <- (app_nil_l (snd _)). apply (Q_more (with_known (remove_first (fun x => waits k (k_wait x)) (s_known s)) s)); auto.
    + left. eapply calm_keeps; [apply known_done_calm|]. right. exists y. auto.
  - left. destruct X as [X|(y & I & G)]; [left; auto|]. right. cbn. destruct (find_in_or _ g _ _ _ F I) as [->|[_ A]]; [|exists y; auto]. exists (g x). split; [|auto]. exact (find_on _ g _ _ F).
Qed.
Lemma known_failed_next f s : (forall x, In x (s_known s) -> DscModel.fails f (k_wait x) = [] -> ok (Known [] (k_have x) (k_goal x))) -> keeps s -> next s (known_failed f s).
Proof.
  intros Ox X. unfold known_failed. cbv zeta. set (m := fun x => Known _ _ _). set (s0 := with_known _ s). destruct X as [X|(y & I & G)].
  - left. eapply calm_keeps; [apply each_calm; intros; apply known_done_calm|]. left. auto.
  - assert (I' : In (m y) (map m (s_known s))) by now apply in_map. destruct (empty (k_wait (m y))) eqn:W.
    + right. rewrite <- (app_nil_l (snd _)). apply (Q_more s0); [auto|]. apply (each_Q _ (m y)); [|apply filter_In; auto|auto]. assert (W' : DscModel.fails f (k_wait y) = []) by (cbn in W; destruct (DscModel.fails f (k_wait y)); [auto|discriminate]). unfold m. rewrite W'. now apply Ox.
    + left. eapply calm_keeps; [apply each_calm; intros; apply known_done_calm|]. right. exists (m y). split; [|auto]. apply filter_In. rewrite W. auto.
Qed.
Lemma failed_next f s : (forall x, In x (s_known s) -> DscModel.fails f (k_wait x) = [] -> ok (Known [] (k_have x) (k_goal x))) -> keeps s -> next (with_providers (filter (fun v => negb (f (v_proc v))) (s_providers s)) s) (failed f s).
Proof.
  intros Ox X. unfold failed. set (s1 := with_providers _ s). destruct (disc_failed _ _) as [ds ev]. unfold next. rewrite bind_fst, bind_snd. cbn [fst snd]. rewrite bind_fst, bind_snd. pose proof (look_failed_calm f (with_disc ds s1)) as C. pose proof (look_failed_fixed f (with_disc ds s1)) as Fx.
  assert (K : keeps (fst (look_failed f (with_disc ds s1)))) by (apply (calm_keeps (with_disc ds s1)); auto). assert (Ox' : forall x, In x (s_known (fst (look_failed f (with_disc ds s1)))) -> DscModel.fails f (k_wait x) = [] -> ok (Known [] (k_have x) (k_goal x))) by (destruct C as [C _]; rewrite C; exact Ox). destruct (known_failed_next f _ Ox' K) as [Y|Y]; [auto|]. right. rewrite app_assoc. apply (Q_more (fst (look_failed f (with_disc ds s1)))); auto.
Qed.
Lemma timeout_next s : (forall g, cause' g = Timeout -> snd (ask AskKnown (with_ability AKnown s) (with_acc acc0 false s)) = [] -> (match g with GExplore d im => g = GExplore (a_direct (s_acc s)) (a_implicit (s_acc s)) | _ => True end) -> ok (Known [] [] g)) -> keeps s -> next s (timeout s).
Proof.
  intros Og X. unfold timeout. set (Xx := match a_direct (s_acc s) with [] => _ | _ => _ end). assert (Y : next s Xx).
  { assert (Z : forall g, g = GExplore (a_direct (s_acc s)) (a_implicit (s_acc s)) -> keeps (with_acc acc0 false s) \/ inGoal g -> next s (fetch g (with_acc acc0 false s))). { intros g Eg G. destruct (fetch_next g (with_acc acc0 false s) (fun e => Og g ltac:(rewrite Eg; auto) e ltac:(rewrite Eg; auto)) G) as [A|A]; [left; auto|right]. rewrite <- (app_nil_l (snd _)). apply (Q_more (with_acc acc0 false s)); auto. }
    destruct X as [X|X].
    - destruct (acc_goal _ X) as [G N]. unfold Xx. destruct (a_direct (s_acc s)) eqn:E1; [destruct (a_implicit (s_acc s)) eqn:E2; [destruct N as [N|N]; congruence|]|]; apply Z; auto; congruence.
    - assert (K : keeps (with_acc acc0 false s)) by (right; auto). unfold Xx. destruct (a_direct (s_acc s)) eqn:E1; [destruct (a_implicit (s_acc s)) eqn:E2; [left; auto|]|]; apply Z; auto; congruence. }
  unfold next. rewrite bind_fst, bind_snd. destruct Y as [Y|Y]; [left; eapply calm_keeps; [apply aggregate_calm|auto]|right; now apply Q_more'].
Qed.
Lemma handle_next i s :
  (forall k w x, i = KnownReply k w -> In x (s_known s) -> In k (map fst (k_wait x)) -> drop_wait k (k_wait x) = [] -> ok (Known [] (union (k_have x) w) (k_goal x))) ->
  (forall f x, (forall p, DscSpec.fails i p = f p) -> (match i with Dead _ | Destroyed _ => True | _ => False end) -> In x (s_known s) -> DscModel.fails f (k_wait x) = [] -> ok (Known [] (k_have x) (k_goal x))) ->
  (forall g, i = cause' g -> (forall p, In p (with_ability AKnown s) -> gone (p_ipc p) s = true) -> (match g with GExplore d im => g = GExplore (a_direct (s_acc s)) (a_implicit (s_acc s)) | _ => True end) -> ok (Known [] [] g)) ->
  keeps s -> next (before i s) (handle i s).
Proof.
  intros O1 O2 O3 X. assert (C : forall s' l, calm s s' -> next (before i s) (s', l)) by (intros s' l A; left; now apply (calm_keeps s)).
  assert (C2 : forall r, calm s (fst r) -> next (before i s) r) by (intros r A; left; now apply (calm_keeps s)).
  assert (A0 : forall f s', with_ability AKnown s' = with_ability AKnown s -> s_lost s' = s_lost s -> snd (ask f (with_ability AKnown s') s') = [] -> forall p, In p (with_ability AKnown s) -> gone (p_ipc p) s = true).
  { intros f s' E1 E2 E p I. pose proof (ask_spec f (with_ability AKnown s') s') as H. destruct (ask f _ s') as [[s2 ev] ws]. cbn in E. subst ws. destruct H as (_ & _ & _ & _ & _ & H). cbn in H. rewrite E1 in H. destruct (gone (p_ipc p) s) eqn:G; [auto|]. assert (J : In p []). { rewrite H. apply filter_In. split; [auto|]. unfold gone in *. rewrite E2, G. auto. } destruct J. }
  destruct i as [d c|p k a|r|r|p k|k c|k c|k w|p w|p ds| |pid|ipc|p k c| |b|ipc]; cbn [handle before] in *; try (apply C; apply calm_refl; auto; fail).
  - destruct (gone _ s); apply C; apply calm_refl; auto; destruct (existsb _ _); auto.
  - destruct (_ || _); [apply C; apply calm_refl; auto|]. destruct (accumulating s); [|apply C2, aggregate_calm]. apply C. split; [auto|]. split; intros x; auto.
  - destruct (s_down s); [apply C; apply calm_refl; auto|]. apply C2, lookup_calm.
  - apply fetch_next; [|auto]. intro E. apply O3; auto. now apply (A0 AskKnown s).
  - destruct (disc_reply _ _ _ _). apply C. apply calm_refl; auto.
  - apply C2, look_reply_calm.
  - apply known_reply_next; [|auto]. intros x. now apply (O1 k w x).
  - destruct (s_down s); [apply C; apply calm_refl; auto|]. apply C. split; [auto|]. split; intros x; cbn; rewrite ?in_snoc; auto.
  - destruct (_ || _); [apply C; apply calm_refl; auto|]. apply C. split; [auto|]. split; intros x; cbn; rewrite ?in_snoc; auto.
  - apply timeout_next; [|auto]. intros g G E. apply O3; auto. now apply (A0 AskKnown (with_acc acc0 false s)).
  - apply failed_next; [|auto]. intros x. apply (O2 (fun p => p_pid p =? pid)); auto.
  - apply failed_next; [|auto]. intros x. apply (O2 (fun p => p_ipc p =? ipc)); auto.
Qed.
End Goals.

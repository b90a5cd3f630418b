(* The discovery: each request is either held or has been answered. *)
From Coq Require Import ZArith List Bool Lia.
From Verif Require Import DscModel DscSpec DscProofs.
Import ListNotations.
Local Open Scope Z_scope.

(* ---- asking ---- *)
Lemma ask_spec f ps : forall s, let '(s', ev, ws) := ask f ps s in
  s' = with_next (s_next s') s /\ s_next s <= s_next s' /\ ev = map (fun x => f (snd x) (fst x)) ws /\ NoDup (map fst ws) /\ (forall x, In x ws -> s_next s <= fst x < s_next s')
  /\ map snd ws = filter (fun p => negb (gone (p_ipc p) s)) ps.
Proof.
  induction ps as [|p ps IH]; intro s; cbn [ask filter].
  - split; [destruct s; reflexivity|]. split; [lia|]. split; [auto|]. split; [constructor|]. split; [intros x []|auto].
  - destruct (gone (p_ipc p) s) eqn:G; cbn [negb]; [apply IH|]. specialize (IH (with_next (s_next s + 1) s)). destruct (ask f ps (with_next (s_next s + 1) s)) as [[s' ev] ws]. destruct IH as (A & B & C & D & E & F). cbn in B.
    split; [rewrite A; destruct s; reflexivity|]. split; [lia|]. split; [cbn; now rewrite <- C|]. split; [cbn; constructor; auto; intro I; apply in_map_iff in I as (x & X & I); specialize (E x I); cbn in E; lia|].
    split; [intros x [<-|I]; [cbn; lia|specialize (E x I); cbn in E; lia]|]. cbn. f_equal. exact F.
Qed.

(* ---- counting ---- *)
Definition keyb (K : bool -> Z -> Z -> bool) (r : req) : bool := K (r_api r) (r_ipc r) (r_corr r).
Definition akeyb (K : bool -> Z -> Z -> bool) (e : effect) : bool := match e with Answer a p k _ => K a p k | _ => false end.
Definition nK K (l : list req) : nat := count (keyb K) l.
Definition aK K (l : list effect) : nat := count (akeyb K) l.
Arguments nK : simpl never.
Arguments aK : simpl never.
Lemma nK_nil K : nK K [] = 0%nat. Proof. reflexivity. Qed.
Lemma aK_nil K : aK K [] = 0%nat. Proof. reflexivity. Qed.
Lemma count_app {A} (f : A -> bool) a b : count f (a ++ b) = (count f a + count f b)%nat.
Proof. unfold count. rewrite filter_app, app_length. lia. Qed.
Lemma count_cons {A} (f : A -> bool) x l : count f (x :: l) = ((if f x then 1 else 0) + count f l)%nat.
Proof. unfold count. cbn. destruct (f x); cbn; lia. Qed.
Lemma count_split {A} (f g : A -> bool) l : (count f (filter g l) + count f (filter (fun x => negb (g x)) l))%nat = count f l.
Proof. induction l as [|x l IH]; cbn -[count]; [auto|]. destruct (g x); cbn -[count]; rewrite !count_cons; lia. Qed.
Lemma count_zero {A} (f : A -> bool) l : (forall x, In x l -> f x = false) -> count f l = 0%nat.
Proof. induction l as [|x l IH]; intro H; [auto|]. rewrite count_cons, (H x), IH; cbn; auto. intros y I. apply H. cbn. auto. Qed.
Lemma count_pos {A} (f : A -> bool) l x : In x l -> f x = true -> (1 <= count f l)%nat.
Proof. induction l as [|y l IH]; [intros []|]. intros [<-|I] F; rewrite count_cons; [rewrite F; lia|]. specialize (IH I F). lia. Qed.
Lemma count_in {A} (f : A -> bool) l : (1 <= count f l)%nat -> exists x, In x l /\ f x = true.
Proof. induction l as [|y l IH]; cbn -[count]; [unfold count; cbn; lia|]. rewrite count_cons. destruct (f y) eqn:F; [eauto|]. intro H. destruct IH as (x & I & E); [lia|eauto]. Qed.
Lemma count_filter_le {A} (f g : A -> bool) l : (count f (filter g l) <= count f l)%nat.
Proof. rewrite <- (count_split f g l). lia. Qed.
Lemma aK_answers K c l : aK K (map (answer c) l) = nK K l.
Proof. unfold aK, nK. induction l as [|r l IH]; cbn -[count]; [auto|]. rewrite !count_cons, IH. reflexivity. Qed.
Lemma aK_asks K f ws : (forall p k, akeyb K (f p k) = false) -> aK K (map (fun x : Z * proc => f (snd x) (fst x)) ws) = 0%nat.
Proof. intro H. apply count_zero. intros e I. apply in_map_iff in I as (x & <- & _). auto. Qed.

Definition job_reqs (d : disc) : list req := match d_job d with JAnswer l => l | JRedisc _ _ => [] end.
Definition held (s : state) : list req := a_api (s_acc s) ++ a_disc (s_acc s) ++ flat_map job_reqs (s_disc s) ++ map l_req (s_look s).
Lemma aK_finish K d : aK K (finish d) = nK K (job_reqs d).
Proof. unfold finish, job_reqs. destruct (d_job d); [apply aK_answers|]. reflexivity. Qed.
Lemma nK_app K a b : nK K (a ++ b) = (nK K a + nK K b)%nat. Proof. apply count_app. Qed.
Lemma aK_app K a b : aK K (a ++ b) = (aK K a + aK K b)%nat. Proof. apply count_app. Qed.
Lemma held_next n s : held (with_next n s) = held s. Proof. reflexivity. Qed.
Lemma nK_held K s : nK K (held s) = (nK K (a_api (s_acc s)) + nK K (a_disc (s_acc s)) + nK K (flat_map job_reqs (s_disc s)) + nK K (map l_req (s_look s)))%nat.
Proof. unfold held. rewrite !nK_app. lia. Qed.

Lemma add_disc_cons K d s : (nK K (held (fst (add_disc d s))) + aK K (snd (add_disc d s)) = nK K (held s) + nK K (job_reqs d))%nat.
Proof. unfold add_disc. destruct (all_failed (d_wait d)); cbn [fst snd]; [rewrite aK_finish; lia|]. rewrite !nK_held. cbn. rewrite flat_map_app, nK_app. cbn. rewrite app_nil_r, aK_nil. lia. Qed.
Lemma aggregate_cons K reqs c s : (nK K (held (fst (aggregate reqs c s))) + aK K (snd (aggregate reqs c s)) = nK K (held s) + nK K reqs)%nat.
Proof.
  unfold aggregate. destruct reqs as [|r l]; [cbn; rewrite nK_nil, aK_nil; lia|]. set (w := normal _ _). set (X := match w with [] => _ | _ => _ end). destruct X as [[s1 ev] ws] eqn:E.
  assert (H : nK K (held s1) = nK K (held s) /\ aK K ev = 0%nat).
  { unfold X in E. destruct w as [|n w']; [injection E as <- <- <-; auto|]. pose proof (ask_spec (fun p k => Ask p k (n :: w')) (with_ability ADiscover s) s) as H. rewrite E in H. destruct H as (A & _ & B & _). rewrite A, held_next, B. split; [auto|]. apply (aK_asks K (fun p k => Ask p k (n :: w'))). auto. }
  destruct H as [H1 H2]. destruct (add_disc _ s1) as [s2 ev2] eqn:D. cbn [fst snd]. pose proof (add_disc_cons K (Disc (map (fun x => (x, false)) ws) c w (JAnswer (r :: l))) s1) as F. rewrite D in F. cbn [fst snd job_reqs d_job] in F. rewrite aK_app. lia.
Qed.
Lemma accumulate_cons K a s : (nK K (held (fst (accumulate a s))) + aK K (snd (accumulate a s)) + nK K (a_api (s_acc s)) + nK K (a_disc (s_acc s)) = nK K (held s) + nK K (a_api a) + nK K (a_disc a))%nat.
Proof. unfold accumulate. cbn [fst snd]. rewrite !nK_held. cbn. destruct (s_timer s); unfold aK; cbn; unfold count; cbn; lia. Qed.
Lemma look_done_cons K l s : (nK K (held (fst (look_done l s))) + aK K (snd (look_done l s)) = nK K (held s) + nK K [l_req l])%nat.
Proof.
  unfold look_done. destruct (negb (r_extend (l_req l))); [cbn; unfold aK, nK; rewrite !count_cons; reflexivity|]. destruct (includes _ _); [cbn; unfold aK, nK; rewrite !count_cons; reflexivity|]. destruct (accumulating s).
  - pose proof (accumulate_cons K (acc_req (l_req l) (l_have l) (s_acc s)) s) as H. cbn [acc_req a_api a_disc] in H. rewrite nK_app in H. lia.
  - apply aggregate_cons.
Qed.
Lemma each_cons {A} K (g : A -> state -> state * list effect) (n : A -> nat) l : (forall x s, nK K (held (fst (g x s))) + aK K (snd (g x s)) = nK K (held s) + n x)%nat ->
  forall s, (nK K (held (fst (each g l s))) + aK K (snd (each g l s)) = nK K (held s) + list_sum (map n l))%nat.
Proof.
  intro G. induction l as [|x l IH]; intro s; cbn [each map]; [cbn; rewrite aK_nil; lia|]. change (list_sum (n x :: map n l)) with (n x + list_sum (map n l))%nat. specialize (G x s). destruct (g x s) as [s1 e1]. specialize (IH s1). destruct (each g l s1) as [s2 e2]. cbn [fst snd] in *. rewrite aK_app. lia.
Qed.
Lemma sum_look K (l : list look) : list_sum (map (fun x => nK K [l_req x]) l) = nK K (map l_req l).
Proof. induction l as [|x l IH]; [auto|]. change (x :: l) with ([x] ++ l). rewrite !map_app, list_sum_app, nK_app, IH. cbn. lia. Qed.
Lemma lookup_cons K r s : (nK K (held (fst (lookup r s))) + aK K (snd (lookup r s)) = nK K (held s) + nK K [r])%nat.
Proof.
  unfold lookup. pose proof (ask_spec (fun p k => AskLook p k (negb (r_extend r)) (r_want r)) (with_ability ALookup s) s) as H. destruct (ask _ _ s) as [[s1 ev] ws]. destruct H as (A & _ & B & _).
  assert (E : aK K ev = 0%nat). { rewrite B. apply (aK_asks K (fun p k => AskLook p k (negb (r_extend r)) (r_want r))). auto. }
  assert (H1 : nK K (held s1) = nK K (held s)) by (rewrite A; apply f_equal, held_next).
  destruct ws as [|w ws].
  - destruct (look_done (Look [] [] r) s1) as [s2 ev2] eqn:D. cbn [fst snd]. pose proof (look_done_cons K (Look [] [] r) s1) as F. rewrite D in F. cbn [fst snd l_req] in F. rewrite aK_app. lia.
  - cbn [fst snd]. rewrite app_nil_r, E, <- H1, !nK_held. cbn. rewrite map_app, nK_app. cbn. lia.
Qed.
Lemma remove_first_cons K f (l : list look) x : find f l = Some x -> nK K (map l_req l) = (nK K [l_req x] + nK K (map l_req (remove_first f l)))%nat.
Proof. induction l as [|y l IH]; cbn -[nK]; [discriminate|]. destruct (f y) eqn:F; intro H; [injection H as ->; apply (nK_app K [l_req x])|]. cbn. specialize (IH H). unfold nK in *. rewrite !count_cons in *. lia. Qed.
Lemma on_first_cons f g (l : list look) : (forall x, l_req (g x) = l_req x) -> map l_req (on_first f g l) = map l_req l.
Proof. intro G. induction l as [|y l IH]; cbn; [auto|]. destruct (f y); cbn; rewrite ?G, ?IH; auto. Qed.
Lemma look_reply_cons K k c s : (nK K (held (fst (look_reply k c s))) + aK K (snd (look_reply k c s)) = nK K (held s))%nat.
Proof.
  unfold look_reply. cbv zeta. destruct (find _ (s_look s)) as [l|] eqn:F; [|cbn; unfold aK, nK; cbn; unfold count; cbn; lia]. cbn [l_wait]. destruct (drop_wait k (l_wait l)) as [|w ws].
  - match goal with |- context [look_done ?a ?b] => pose proof (look_done_cons K a b) as H end. rewrite (nK_held K (with_look _ s)) in H. rewrite (nK_held K s). cbn [with_look s_acc s_disc s_look l_req] in H. pose proof (remove_first_cons K _ _ _ F). lia.
  - cbn [fst snd]. rewrite !nK_held. cbn. rewrite on_first_cons; [rewrite aK_nil; lia|auto].
Qed.
Lemma filter_map_cons K f h (l : list look) : (forall x, l_req (h x) = l_req x) -> nK K (map l_req l) = (nK K (map l_req (filter f (map h l))) + nK K (map l_req (filter (fun x => negb (f x)) (map h l))))%nat.
Proof. intro H. induction l as [|x l IH]; [auto|]. cbn -[nK]. destruct (f (h x)); cbn -[nK]; unfold nK in *; rewrite !count_cons, ?H; lia. Qed.
Lemma look_failed_cons K f s : (nK K (held (fst (look_failed f s))) + aK K (snd (look_failed f s)) = nK K (held s))%nat.
Proof.
  unfold look_failed. set (h := fun l => Look _ _ _). rewrite (each_cons K look_done (fun x => nK K [l_req x])); [|intros; apply look_done_cons]. rewrite sum_look, !nK_held. cbn [with_look s_acc s_disc s_look]. rewrite (filter_map_cons K (fun l => empty (l_wait l)) h (s_look s)); [lia|auto].
Qed.
Lemma disc_entry_cons K k c cf d : (nK K (match fst (disc_entry k c cf d) with Some d' => job_reqs d' | None => [] end) + aK K (snd (disc_entry k c cf d)) = nK K (job_reqs d))%nat.
Proof.
  unfold disc_entry. destruct (d_job d) as [l|p q] eqn:J.
  - set (have := plus _ _). set (ws := filter _ (d_wait d)). pose proof (count_split (keyb K) (fun r => includes (r_want r) have) l) as S. unfold job_reqs at 2. rewrite J. cbv zeta.
    destruct (filter (fun r => negb (includes (r_want r) have)) l) as [|r rest] eqn:R.
    + cbn [fst snd]. rewrite aK_answers. unfold nK in *. unfold count at 2 in S. cbn in S. change (count (keyb K) []) with 0%nat. lia.
    + destruct (all_failed ws); cbn [fst snd].
      * rewrite aK_app, aK_answers, aK_finish. unfold nK in *. cbn [job_reqs d_job]. change (count (keyb K) []) with 0%nat. lia.
      * rewrite aK_answers. unfold nK in *. cbn [job_reqs d_job]. lia.
  - cbv zeta. destruct (all_failed _); cbn [fst snd].
    + rewrite aK_finish. unfold job_reqs. cbn. rewrite J. reflexivity.
    + unfold job_reqs. cbn. rewrite J. reflexivity.
Qed.
Lemma disc_reply_cons K k c cf l : (nK K (flat_map job_reqs (fst (disc_reply k c cf l))) + aK K (snd (disc_reply k c cf l)) = nK K (flat_map job_reqs l))%nat.
Proof.
  induction l as [|d l IH]; cbn; [reflexivity|]. destruct (waits_disc k d).
  - pose proof (disc_entry_cons K k c cf d) as H. destruct (disc_entry k c cf d) as [[d'|] ev]; cbn [fst snd] in *; cbn; rewrite !nK_app; [lia|]. change (nK K []) with 0%nat in H. lia.
  - destruct (disc_reply k c cf l) as [r ev]. cbn [fst snd] in *. cbn. rewrite !nK_app. lia.
Qed.
Lemma disc_failed_cons K f l : (nK K (flat_map job_reqs (fst (disc_failed f l))) + aK K (snd (disc_failed f l)) = nK K (flat_map job_reqs l))%nat.
Proof.
  unfold disc_failed. cbn. induction l as [|d l IH]; [reflexivity|]. cbn [map filter flat_map]. rewrite aK_app. change (job_reqs d) with (job_reqs (fail_disc f d)). destruct (all_failed (d_wait (fail_disc f d))); cbn [negb flat_map]; rewrite ?nK_app.
  - rewrite aK_finish. lia. - change (aK K []) with 0%nat. lia.
Qed.
(* what is known has nothing to do with them *)
Lemma known_done_cons K x s : (nK K (held (fst (known_done x s))) + aK K (snd (known_done x s)) = nK K (held s))%nat.
Proof.
  unfold known_done. destruct (k_goal x) as [p k|direct implicit].
  - set (w := union _ _). pose proof (ask_spec (fun p k => Ask p k w) (with_ability ADiscover s) s) as H. destruct (ask _ _ s) as [[s1 ev] ws]. destruct H as (A & _ & B & _). assert (H1 : nK K (held s1) = nK K (held s)) by (rewrite A; apply f_equal, held_next).
    assert (E : aK K ev = 0%nat). { rewrite B. apply (aK_asks K (fun p k => Ask p k w)). auto. }
    pose proof (add_disc_cons K (Disc (map (fun x => (x, false)) ws) [] [] (JRedisc p k)) s1) as F. destruct (add_disc _ s1) as [s2 ev2]. cbn [fst snd] in *. change (job_reqs _) with (@nil req) in F. change (nK K []) with 0%nat in F. rewrite aK_app. lia.
  - cbv zeta. cbn [fst snd]. rewrite aK_app. assert (Z0 : forall (g : Z -> effect) l, (forall p, akeyb K (g p) = false) -> aK K (flat_map (fun p => send p (g p) s) l) = 0%nat).
    { intros g l G. apply count_zero. intros e I. apply in_flat_map in I as (p & _ & I). unfold send in I. destruct (gone p s); [destruct I|]. destruct I as [<-|[]]. apply G. }
    assert (Z1 : forall (g : proc -> effect) l, (forall p, akeyb K (g p) = false) -> aK K (flat_map (fun p => send (p_ipc p) (g p) s) l) = 0%nat).
    { intros g l G. apply count_zero. intros e I. apply in_flat_map in I as (p & _ & I). unfold send in I. destruct (gone (p_ipc p) s); [destruct I|]. destruct I as [<-|[]]. apply G. }
    rewrite (Z1 (fun p => Implicit (p_ipc p) _)); [|auto]. destruct (union _ _); [change (aK K []) with 0%nat; lia|]. rewrite (Z0 (fun p => Explore p _)); [lia|auto].
Qed.
Lemma fetch_cons K g s : (nK K (held (fst (fetch g s))) + aK K (snd (fetch g s)) = nK K (held s))%nat.
Proof.
  unfold fetch. pose proof (ask_spec AskKnown (with_ability AKnown s) s) as H. destruct (ask _ _ s) as [[s1 ev] ws]. destruct H as (A & _ & B & _). assert (H1 : nK K (held s1) = nK K (held s)) by (rewrite A; apply f_equal, held_next).
  assert (E : aK K ev = 0%nat) by (rewrite B; apply (aK_asks K AskKnown); auto). destruct ws as [|w ws].
  - pose proof (known_done_cons K (Known [] [] g) s1) as F. destruct (known_done _ s1) as [s2 ev2]. cbn [fst snd] in *. rewrite aK_app. lia.
  - cbn [fst snd]. rewrite app_nil_r, E, !nK_held in *. cbn. lia.
Qed.
Lemma known_reply_cons K k w s : (nK K (held (fst (known_reply k w s))) + aK K (snd (known_reply k w s)) = nK K (held s))%nat.
Proof.
  unfold known_reply. destruct (find _ (s_known s)) as [x|]; [|cbn; unfold aK, nK; cbn; unfold count; cbn; lia]. cbv zeta. destruct (k_wait _).
  - rewrite known_done_cons. reflexivity. - cbn. unfold aK. cbn. rewrite !nK_held. cbn. lia.
Qed.
Lemma known_failed_cons K f s : (nK K (held (fst (known_failed f s))) + aK K (snd (known_failed f s)) = nK K (held s))%nat.
Proof.
  unfold known_failed. rewrite (each_cons K known_done (fun _ => 0%nat)); [|intros; rewrite known_done_cons; lia]. assert (Z : forall l : list known, list_sum (map (fun _ => 0%nat) l) = 0%nat) by (induction l; auto). rewrite Z. cbn. rewrite !nK_held. cbn. lia.
Qed.
Lemma bind_fst a g : fst (bind a g) = fst (g (fst a)).
Proof. unfold bind. destruct a as [s1 e1]. cbn. now destruct (g s1). Qed.
Lemma bind_snd a g : snd (bind a g) = snd a ++ snd (g (fst a)).
Proof. unfold bind. destruct a as [s1 e1]. cbn. now destruct (g s1). Qed.
Lemma failed_cons K f s : (nK K (held (fst (failed f s))) + aK K (snd (failed f s)) = nK K (held s))%nat.
Proof.
  unfold failed. set (s1 := with_providers _ s). pose proof (disc_failed_cons K f (s_disc s1)) as D. destruct (disc_failed f (s_disc s1)) as [ds ev]. rewrite bind_fst, bind_snd. cbn [fst snd] in *. rewrite bind_fst, bind_snd, !aK_app.
  pose proof (look_failed_cons K f (with_disc ds s1)) as L. pose proof (known_failed_cons K f (fst (look_failed f (with_disc ds s1)))) as N. assert (H : (nK K (held (with_disc ds s1)) + aK K ev = nK K (held s))%nat) by (rewrite !nK_held; cbn in *; lia). lia.
Qed.
Definition arr (i : input) : list req := match i with Api r | Request r => [r] | _ => [] end.
Lemma timeout_cons K s : (nK K (held (fst (timeout s))) + aK K (snd (timeout s)) = nK K (held s))%nat.
Proof.
  unfold timeout. rewrite bind_fst, bind_snd, aK_app. set (X := match a_direct (s_acc s) with [] => _ | _ => _ end). pose proof (aggregate_cons K (a_api (s_acc s) ++ a_disc (s_acc s)) (a_have (s_acc s)) (fst X)) as A. rewrite nK_app in A.
  assert (H : (nK K (held (fst X)) + aK K (snd X) + nK K (a_api (s_acc s)) + nK K (a_disc (s_acc s)) = nK K (held s))%nat).
  { assert (E : nK K (held (with_acc acc0 false s)) = (nK K (flat_map job_reqs (s_disc s)) + nK K (map l_req (s_look s)))%nat) by (rewrite nK_held; cbn; rewrite !nK_nil; lia).
    unfold X. destruct (a_direct (s_acc s)); [destruct (a_implicit (s_acc s))|]; try (cbn [fst snd]; change (aK K []) with 0%nat; rewrite E, nK_held; lia); rewrite fetch_cons, E, nK_held; lia. }
  lia.
Qed.
Lemma handle_cons K i s : (nK K (held (fst (handle i s))) + aK K (snd (handle i s)) = nK K (held s) + nK K (arr i))%nat.
Proof.
  destruct i as [d c|p k a|r|r|p k|k c|k c|k w|p w|p ds| |pid|ipc|p k c| |b|ipc]; cbn [handle arr].
  - cbn. rewrite aK_nil, nK_nil, !Nat.add_0_r. reflexivity.
  - destruct (gone _ s); [cbn; rewrite aK_nil, nK_nil; lia|]. cbn. destruct (existsb _ _); cbn; unfold aK, nK; cbn; rewrite !Nat.add_0_r; reflexivity.
  - destruct (s_down s || empty (r_want r)); [cbn; unfold aK, nK; rewrite !count_cons; reflexivity|]. destruct (accumulating s); [|apply aggregate_cons].
    pose proof (accumulate_cons K (acc_api r (s_acc s)) s) as H. cbn [acc_api a_api a_disc] in H. rewrite nK_app in H. lia.
  - destruct (s_down s); [cbn; unfold aK, nK; rewrite !count_cons; reflexivity|]. apply lookup_cons.
  - rewrite fetch_cons, nK_nil. lia.
  - pose proof (disc_reply_cons K k c (s_config s) (s_disc s)) as H. destruct (disc_reply k c (s_config s) (s_disc s)) as [ds ev]. cbn [fst snd] in *. change (nK K []) with 0%nat. rewrite !nK_held. cbn. lia.
  - rewrite look_reply_cons, nK_nil. lia.
  - rewrite known_reply_cons, nK_nil. lia.
  - change (nK K []) with 0%nat. destruct (s_down s); [cbn; unfold aK, nK; cbn; unfold count; cbn; lia|]. pose proof (accumulate_cons K (acc_direct p w (s_acc s)) s) as H. cbn [acc_direct a_api a_disc] in H. lia.
  - change (nK K []) with 0%nat. destruct (_ || _); [cbn; unfold aK, nK; cbn; unfold count; cbn; lia|]. pose proof (accumulate_cons K (acc_implicit p ds (s_acc s)) s) as H. cbn [acc_implicit a_api a_disc] in H. lia.
  - rewrite timeout_cons, nK_nil. lia.
  - rewrite failed_cons, nK_nil. lia.
  - rewrite failed_cons, nK_nil. lia.
  - cbn [fst snd]. change (nK K []) with 0%nat. unfold send. destruct (gone p s); unfold aK; cbn; rewrite !nK_held; cbn; lia.
  - cbn. rewrite aK_nil, nK_nil, !Nat.add_0_r. reflexivity.
  - cbn. rewrite aK_nil, nK_nil, !Nat.add_0_r. reflexivity.
  - cbn. rewrite aK_nil, nK_nil, !Nat.add_0_r. reflexivity.
Qed.

Lemma gone_iff s p : gone p s = true <-> In p (s_lost s).
Proof. unfold gone. rewrite existsb_exists. split; [intros (x & I & E); apply Z.eqb_eq in E; now subst|]. intro I. exists p. split; [auto|apply Z.eqb_refl]. Qed.

(* ---- what doesn't change ---- *)
Definition fixed (s : state) := (s_down s, s_self s, s_config s, s_providers s, s_busy s, s_lost s).
Lemma ask_fixed f ps s : fixed (fst (fst (ask f ps s))) = fixed s.
Proof. pose proof (ask_spec f ps s) as H. destruct (ask f ps s) as [[s' ev] ws]. destruct H as (A & _). cbn. rewrite A. reflexivity. Qed.
Lemma add_disc_fixed d s : fixed (fst (add_disc d s)) = fixed s.
Proof. unfold add_disc. now destruct (all_failed _). Qed.
Lemma aggregate_fixed reqs c s : fixed (fst (aggregate reqs c s)) = fixed s.
Proof.
  unfold aggregate. destruct reqs as [|r l]; [auto|]. set (w := normal _ _). set (X := match w with [] => _ | _ => _ end).
  assert (E : fixed (fst (fst X)) = fixed s) by (unfold X; destruct w; [auto|apply ask_fixed]). destruct X as [[s1 ev] ws]. cbn [fst] in E. pose proof (add_disc_fixed (Disc (map (fun x => (x, false)) ws) c w (JAnswer (r :: l))) s1) as F. destruct (add_disc _ s1) as [s2 ev2]. cbn [fst] in *. congruence.
Qed.
Lemma look_done_fixed l s : fixed (fst (look_done l s)) = fixed s.
Proof. unfold look_done. destruct (negb _); [auto|]. destruct (includes _ _); [auto|]. destruct (accumulating s); [auto|]. apply aggregate_fixed. Qed.
Lemma lookup_fixed r s : fixed (fst (lookup r s)) = fixed s.
Proof.
  unfold lookup. pose proof (ask_fixed (fun p k => AskLook p k (negb (r_extend r)) (r_want r)) (with_ability ALookup s) s) as E. destruct (ask _ _ s) as [[s1 ev] ws]. cbn [fst] in E. destruct ws; [|exact E].
  pose proof (look_done_fixed (Look [] [] r) s1) as F. destruct (look_done _ s1). cbn [fst] in *. congruence.
Qed.
Lemma look_reply_fixed k c s : fixed (fst (look_reply k c s)) = fixed s.
Proof. unfold look_reply. cbv zeta. destruct (find _ _); [|auto]. destruct (l_wait _); [|auto]. rewrite look_done_fixed. reflexivity. Qed.
Lemma each_fixed {A} (g : A -> state -> state * list effect) l : (forall x s, fixed (fst (g x s)) = fixed s) -> forall s, fixed (fst (each g l s)) = fixed s.
Proof. intro G. induction l as [|x l IH]; intro s; cbn [each]; [auto|]. specialize (G x s). destruct (g x s) as [s1 e1]. specialize (IH s1). destruct (each g l s1). cbn [fst] in *. congruence. Qed.
Lemma look_failed_fixed f s : fixed (fst (look_failed f s)) = fixed s.
Proof. unfold look_failed. cbv zeta. rewrite each_fixed; [reflexivity|]. intros. apply look_done_fixed. Qed.
Lemma known_done_fixed x s : fixed (fst (known_done x s)) = fixed s.
Proof.
  unfold known_done. destruct (k_goal x) as [p k|]; [|reflexivity]. set (w := union _ _). pose proof (ask_fixed (fun p k => Ask p k w) (with_ability ADiscover s) s) as E. destruct (ask _ _ s) as [[s1 ev] ws]. cbn [fst] in E.
  pose proof (add_disc_fixed (Disc (map (fun x => (x, false)) ws) [] [] (JRedisc p k)) s1) as F. destruct (add_disc _ s1). cbn [fst] in *. congruence.
Qed.
Lemma fetch_fixed g s : fixed (fst (fetch g s)) = fixed s.
Proof.
  unfold fetch. pose proof (ask_fixed AskKnown (with_ability AKnown s) s) as E. destruct (ask _ _ s) as [[s1 ev] ws]. cbn [fst] in E. destruct ws; [|exact E].
  pose proof (known_done_fixed (Known [] [] g) s1) as F. destruct (known_done _ s1). cbn [fst] in *. congruence.
Qed.
Lemma known_reply_fixed k c s : fixed (fst (known_reply k c s)) = fixed s.
Proof. unfold known_reply. cbv zeta. destruct (find _ _); [|auto]. destruct (k_wait _); [|auto]. rewrite known_done_fixed. reflexivity. Qed.
Lemma known_failed_fixed f s : fixed (fst (known_failed f s)) = fixed s.
Proof. unfold known_failed. cbv zeta. rewrite each_fixed; [reflexivity|]. intros. apply known_done_fixed. Qed.
Lemma failed_fixed f s : fixed (fst (failed f s)) = fixed (with_providers (filter (fun v => negb (f (v_proc v))) (s_providers s)) s).
Proof. unfold failed. destruct (disc_failed _ _) as [ds ev]. rewrite bind_fst. cbn [fst]. rewrite bind_fst, known_failed_fixed, look_failed_fixed. reflexivity. Qed.
Lemma timeout_fixed s : fixed (fst (timeout s)) = fixed s.
Proof. unfold timeout. rewrite bind_fst, aggregate_fixed. destruct (a_direct _); [destruct (a_implicit _); [reflexivity|]|]; rewrite fetch_fixed; reflexivity. Qed.

(* the input's own changes *)
Definition before (i : input) (s : state) : state :=
  match i with
  | Begin self c => with_self self (with_config c s)
  | Register p k a => if gone (p_ipc p) s then s else if existsb (fun v => p_ipc (v_proc v) =? p_ipc p) (s_providers s) then s else with_providers (s_providers s ++ [Provider p a]) s
  | Dead pid => with_providers (filter (fun v => negb (p_pid (v_proc v) =? pid)) (s_providers s)) s
  | Destroyed ipc => with_providers (filter (fun v => negb (p_ipc (v_proc v) =? ipc)) (s_providers s)) s
  | Configure _ _ c => with_config c s
  | Shutdown => with_down true s
  | Busy b => with_busy b s
  | Lost ipc => with_lost (ipc :: s_lost s) s
  | _ => s
  end.
Lemma handle_fixed i s : fixed (fst (handle i s)) = fixed (before i s).
Proof.
  destruct i; cbn [handle before]; try reflexivity.
  - destruct (gone _ s); reflexivity.
  - destruct (_ || _); [auto|]. destruct (accumulating s); [auto|apply aggregate_fixed].
  - destruct (s_down s); [auto|apply lookup_fixed].
  - apply fetch_fixed.
  - destruct (disc_reply _ _ _ _); reflexivity.
  - apply look_reply_fixed.
  - apply known_reply_fixed.
  - destruct (s_down s); reflexivity.
  - destruct (_ || _); reflexivity.
  - apply timeout_fixed.
  - apply failed_fixed.
  - apply failed_fixed.
Qed.
Lemma step_fst i s : fst (step i s) = fst (handle i s).
Proof. unfold step. now destruct (handle i s). Qed.
Lemma step_snd i s : snd (step i s) = filter (reached s) (snd (handle i s)).
Proof. unfold step. now destruct (handle i s). Qed.

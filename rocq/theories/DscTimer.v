(* The discovery: the timer, and what waits for it. *)
From Coq Require Import ZArith List Bool Lia.
From Verif Require Import DscModel DscSpec DscProofs DscHold DscEnv.
Import ListNotations.
Local Open Scope Z_scope.

Definition st (s : state) (r : state * list effect) : Prop := s_timer (fst r) = s_timer s /\ s_acc (fst r) = s_acc s /\ ~ In Timer (snd r).
Definition tk (s : state) (r : state * list effect) : Prop :=
  (s_timer (fst r) = true <-> s_timer s = true \/ In Timer (snd r)) /\ ((s_timer s = false -> s_acc s = acc0) -> s_timer (fst r) = false -> s_acc (fst r) = acc0).
Lemma st_tk s r : st s r -> tk s r.
Proof. intros (A & B & C). split; rewrite A, ?B; tauto. Qed.
Lemma st_app s s1 e1 s2 e2 : st s (s1, e1) -> st s1 (s2, e2) -> st s (s2, e1 ++ e2).
Proof. intros (A & B & C) (A' & B' & C'). cbn in *. split; [cbn; congruence|]. split; [cbn; congruence|]. cbn. rewrite in_app_iff. tauto. Qed.
Lemma tk_app s s1 e1 s2 e2 : tk s (s1, e1) -> tk s1 (s2, e2) -> tk s (s2, e1 ++ e2).
Proof. intros (A & B) (A' & B'). unfold tk in *. cbn [fst snd] in *. rewrite in_app_iff. split; [tauto|]. intros X Y. apply B'; auto. Qed.
Lemma ask_st f ps s : (forall p k, f p k <> Timer) -> st s (fst (fst (ask f ps s)), snd (fst (ask f ps s))).
Proof.
  intro F. pose proof (ask_spec f ps s) as H. destruct (ask f ps s) as [[s' ev] ws]. destruct H as (A & _ & B & _). cbn. unfold st. cbn. rewrite A, B. split; [auto|]. split; [auto|]. intro I. apply in_map_iff in I as (x & E & _). now apply F in E.
Qed.
Lemma finish_timer d : ~ In Timer (finish d).
Proof. unfold finish. destruct (d_job d); [intro I; apply in_map_iff in I as (r & E & _); discriminate|]. intros [E|[]]. discriminate. Qed.
Lemma add_disc_st d s : st s (add_disc d s).
Proof. unfold add_disc. destruct (all_failed _); (split; [auto|split; [auto|]]); cbn; [apply finish_timer|auto]. Qed.
Lemma aggregate_st reqs c s : st s (aggregate reqs c s).
Proof.
  unfold aggregate. destruct reqs as [|r l]; [split; [auto|split; [auto|intros []]]|]. set (w := normal _ _). set (X := match w with [] => _ | _ => _ end).
  assert (E : st s (fst (fst X), snd (fst X))). { unfold X. destruct w; [split; [auto|split; [auto|intros []]]|]. apply ask_st. discriminate. }
  destruct X as [[s1 ev] ws]. cbn [fst snd] in E. pose proof (add_disc_st (Disc (map (fun x => (x, false)) ws) c w (JAnswer (r :: l))) s1) as F. destruct (add_disc _ s1) as [s2 ev2]. now apply (st_app s s1).
Qed.
Lemma accumulate_tk a s : tk s (accumulate a s).
Proof. unfold tk, accumulate. cbn. destruct (s_timer s); cbn; split; try tauto; try discriminate. Qed.
Lemma look_done_tk l s : tk s (look_done l s).
Proof.
  unfold look_done. destruct (negb _); [apply st_tk; split; [auto|split; [auto|intros [E|[]]; discriminate]]|]. destruct (includes _ _); [apply st_tk; split; [auto|split; [auto|intros [E|[]]; discriminate]]|]. destruct (accumulating s); [apply accumulate_tk|apply st_tk, aggregate_st].
Qed.
Lemma lookup_tk r s : tk s (lookup r s).
Proof.
  unfold lookup. pose proof (ask_st (fun p k => AskLook p k (negb (r_extend r)) (r_want r)) (with_ability ALookup s) s) as E. destruct (ask _ _ s) as [[s1 ev] ws]. cbn [fst snd] in E. specialize (E ltac:(discriminate)). apply st_tk in E. destruct ws.
  - pose proof (look_done_tk (Look [] [] r) s1) as F. destruct (look_done _ s1). now apply (tk_app s s1).
  - rewrite app_nil_r. exact E.
Qed.
Lemma look_reply_tk k c s : tk s (look_reply k c s).
Proof. unfold look_reply. cbv zeta. destruct (find _ _); [|apply st_tk; split; [auto|split; [auto|intros []]]]. destruct (l_wait _); [|apply st_tk; split; [auto|split; [auto|intros []]]]. apply (look_done_tk _ (with_look _ s)). Qed.
Lemma each_tk {A} (g : A -> state -> state * list effect) l : (forall x s, tk s (g x s)) -> forall s, tk s (each g l s).
Proof. intro G. induction l as [|x l IH]; intro s; cbn [each]; [apply st_tk; split; [auto|split; [auto|intros []]]|]. specialize (G x s). destruct (g x s) as [s1 e1]. specialize (IH s1). destruct (each g l s1). now apply (tk_app s s1). Qed.
Lemma look_failed_tk f s : tk s (look_failed f s).
Proof. unfold look_failed. cbv zeta. apply (each_tk look_done _ (fun x s => look_done_tk x s) (with_look _ s)). Qed.
Lemma known_done_st x s : st s (known_done x s).
Proof.
  unfold known_done. destruct (k_goal x) as [p k|].
  - set (w := union _ _). pose proof (ask_st (fun p k => Ask p k w) (with_ability ADiscover s) s ltac:(discriminate)) as E. destruct (ask _ _ s) as [[s1 ev] ws]. cbn [fst snd] in E. pose proof (add_disc_st (Disc (map (fun x => (x, false)) ws) [] [] (JRedisc p k)) s1) as F. destruct (add_disc _ s1). now apply (st_app s s1).
  - split; [auto|]. split; [auto|]. cbn. intro I. apply in_app_iff in I as [I|I].
    + destruct (union _ _); [destruct I|]. apply in_flat_map in I as (p & _ & I). unfold send in I. destruct (gone p s); [destruct I|]. destruct I as [E|[]]. discriminate.
    + apply in_flat_map in I as (p & _ & I). unfold send in I. destruct (gone (p_ipc p) s); [destruct I|]. destruct I as [E|[]]. discriminate.
Qed.
Lemma fetch_st g s : st s (fetch g s).
Proof.
  unfold fetch. pose proof (ask_st AskKnown (with_ability AKnown s) s ltac:(discriminate)) as E. destruct (ask _ _ s) as [[s1 ev] ws]. cbn [fst snd] in E. destruct ws.
  - pose proof (known_done_st (Known [] [] g) s1) as F. destruct (known_done _ s1). now apply (st_app s s1).
  - rewrite app_nil_r. exact E.
Qed.
Lemma known_reply_st k c s : st s (known_reply k c s).
Proof. unfold known_reply. cbv zeta. destruct (find _ _); [|split; [auto|split; [auto|intros []]]]. destruct (k_wait _); [|split; [auto|split; [auto|intros []]]]. apply (known_done_st _ (with_known _ s)). Qed.
Lemma known_failed_tk f s : tk s (known_failed f s).
Proof. unfold known_failed. cbv zeta. apply (each_tk known_done _ (fun x s => st_tk _ _ (known_done_st x s)) (with_known _ s)). Qed.
Lemma disc_failed_timer f l : ~ In Timer (snd (disc_failed f l)).
Proof. unfold disc_failed. cbn. intro I. apply in_flat_map in I as (d & _ & I). destruct (all_failed _); [now apply finish_timer in I|destruct I]. Qed.
Lemma disc_entry_timer k c cf d : ~ In Timer (snd (disc_entry k c cf d)).
Proof.
  assert (A : forall c l, ~ In Timer (map (answer c) l)) by (intros c0 l0 I; apply in_map_iff in I as (r & E & _); discriminate). unfold disc_entry. cbv zeta. destruct (d_job d) as [l|p q].
  - destruct (filter (fun r => negb _) l); [apply A|]. destruct (all_failed _); cbn [snd]; [|apply A]. rewrite in_app_iff. intros [I|I]; [now apply A in I|now apply finish_timer in I].
  - destruct (all_failed _); cbn [snd]; [apply finish_timer|intros []].
Qed.
Lemma disc_reply_timer k c cf l : ~ In Timer (snd (disc_reply k c cf l)).
Proof. induction l as [|d l IH]; cbn [disc_reply]; [intros []|]. destruct (waits_disc k d); [pose proof (disc_entry_timer k c cf d) as E; destruct (disc_entry k c cf d) as [o ev]; exact E|]. destruct (disc_reply k c cf l). exact IH. Qed.
Lemma failed_tk f s : tk s (failed f s).
Proof.
  unfold failed. set (s1 := with_providers _ s). pose proof (disc_failed_timer f (s_disc s1)) as D. destruct (disc_failed _ _) as [ds ev]. cbn [snd] in D. unfold bind. pose proof (look_failed_tk f (with_disc ds s1)) as L. destruct (look_failed f (with_disc ds s1)) as [s2 e2]. pose proof (known_failed_tk f s2) as K. destruct (known_failed f s2) as [s3 e3].
  apply (tk_app s (with_disc ds s1)); [apply st_tk; split; [auto|split; auto]|]. now apply (tk_app _ s2).
Qed.
Lemma timeout_st s : st (with_acc acc0 false s) (timeout s).
Proof.
  unfold timeout. set (X := match a_direct (s_acc s) with [] => _ | _ => _ end). assert (E : st (with_acc acc0 false s) X). { unfold X. destruct (a_direct _); [destruct (a_implicit _); [split; [auto|split; [auto|intros []]]|]|]; apply fetch_st. }
  unfold bind. destruct X as [s1 e1]. pose proof (aggregate_st (a_api (s_acc s) ++ a_disc (s_acc s)) (a_have (s_acc s)) s1) as A. destruct (aggregate _ _ s1). now apply (st_app _ s1).
Qed.
Lemma handle_tk i s : i <> Timeout -> tk s (handle i s).
Proof.
  intro N. assert (T : forall s' l, s_timer s' = s_timer s -> s_acc s' = s_acc s -> ~ In Timer l -> tk s (s', l)) by (intros s' l A B C; apply st_tk; split; auto).
  destruct i as [d c|p k a|r|r|p k|k c|k c|k w|p w|p ds| |pid|ipc|p k c| |b|ipc]; cbn [handle]; try (apply T; auto; fail).
  - destruct (gone _ s); [apply T; auto|]. apply T; [destruct (existsb _ _); auto|destruct (existsb _ _); auto|]. intros [E|[]]. discriminate.
  - destruct (_ || _); [apply T; auto; intros [E|[]]; discriminate|]. destruct (accumulating s); [apply accumulate_tk|apply st_tk, aggregate_st].
  - destruct (s_down s); [apply T; auto; intros [E|[]]; discriminate|]. apply lookup_tk.
  - apply st_tk, fetch_st.
  - pose proof (disc_reply_timer k c (s_config s) (s_disc s)) as D. destruct (disc_reply _ _ _ _). now apply T.
  - apply look_reply_tk.
  - apply st_tk, known_reply_st.
  - destruct (s_down s); [apply T; auto|]. apply accumulate_tk.
  - destruct (_ || _); [apply T; auto|]. apply accumulate_tk.
  - destruct (N eq_refl).
  - apply failed_tk.
  - apply failed_tk.
  - apply T; auto. unfold send. destruct (gone p s); [auto|]. intros [E|[]]. discriminate.
Qed.
Lemma armed_snoc h i ev : armed (h ++ [(i, ev)]) <-> In Timer ev \/ (armed h /\ i <> Timeout).
Proof.
  split.
  - intro A. inversion A as [h' i' ev' B E|h' i' ev' B C E]; apply snoc_inj in E as [-> E]; injection E as -> ->; auto.
  - intros [A|[A B]]; [now apply armed_now|now apply armed_since].
Qed.
Lemma timer_in s l : In Timer (filter (reached s) l) <-> In Timer l.
Proof. rewrite filter_In. cbn. tauto. Qed.
Lemma reach_timer s h : reach s h -> (s_timer s = true <-> armed h) /\ (s_timer s = false -> s_acc s = acc0).
Proof.
  induction 1 as [|s h i R IH P]; [split; [|auto]; cbn; split; [discriminate|]; intro A; inversion A as [h0 i0 ev0 B E|h0 i0 ev0 B C E]; destruct h0; discriminate|]. destruct IH as [I1 I2].
  rewrite armed_snoc, step_fst, step_snd, timer_in. assert (D : i = Timeout \/ i <> Timeout) by (destruct i; auto; right; discriminate). destruct D as [->|D].
  - destruct (timeout_st s) as (A & B & C). cbn [handle]. split; [|intros _; rewrite B; auto]. rewrite A. cbn. split; [discriminate|]. intros [X|[_ X]]; [destruct (C X)|destruct (X eq_refl)].
  - destruct (handle_tk i s D) as [A B]. split; [|auto]. rewrite A, I1. tauto.
Qed.

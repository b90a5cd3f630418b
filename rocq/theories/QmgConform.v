(* The queue manager: the groups become what the configuration wants. *)
From Coq Require Import ZArith List Bool Lia.
From Verif Require Import QmgModel QmgSpec QmgProofs QmgEnt QmgQueues QmgOffers QmgLook QmgLook2 QmgAnswers QmgTasks.
Import ListNotations.
Local Open Scope Z_scope.

(* ---- one at a time ---- *)
Definition ordered (E ev : list effect) (I : list input) : Prop :=
  forall a e b, ev = a ++ e :: b -> acts e = true -> (forall e', In e' E -> completeI e' I) /\ forall e', In e' a -> completeI e' I \/ same_kind e e'.
Lemma ordered_nil E I : ordered E [] I.
Proof. intros a e b H. now apply app_cons_not_nil in H. Qed.
Lemma split_app {A} (x y : list A) a e b : x ++ y = a ++ e :: b -> (exists b', x = a ++ e :: b') \/ exists a', a = x ++ a' /\ y = a' ++ e :: b.
Proof.
  revert a. induction x as [|z x IH]; intros a H; cbn in H; [right; exists a; auto|]. destruct a as [|w a]; cbn in H; injection H as -> H; [left; exists x; auto|]. destruct (IH a H) as [(b' & ->)|(a' & -> & ->)]; [left; exists b'; auto|right; exists a'; auto].
Qed.
Lemma ordered_app E ev ev' I : ordered E ev I -> ordered (E ++ ev) ev' I -> ordered E (ev ++ ev') I.
Proof.
  intros A B a e b H X. apply split_app in H as [(b' & H)|(a' & -> & H)]; [eapply A; eauto|]. destruct (B a' e b H X) as [B1 B2]. split; [intros e' J; apply B1, in_or_app; auto|]. intros e' J. apply in_app_iff in J as [J|J]; [left; apply B1, in_or_app; auto|auto].
Qed.
Lemma start_kind t s e e' : In e (snd (fst (start t s))) -> In e' (snd (fst (start t s))) -> acts e = true -> completeI e' [] \/ same_kind e e'.
Proof.
  destruct t as [f l|f l|f l|p k]; cbn [start].
  - pose proof (spawn_facts f l s) as H. destruct (spawn f l s) as [[s' ev] ps]. destruct H as (_ & H & _). cbn. intros J J' _. destruct (H _ J) as (c & p & _ & -> & _). destruct (H _ J') as (c' & p' & _ & -> & _). right. reflexivity.
  - cbn. intros J J' _. apply in_map_iff in J as (x & <- & _). apply in_map_iff in J' as (x' & <- & _). right. reflexivity.
  - cbn. intros J J' _. left. apply in_map_iff in J' as (x & <- & J'). apply in_flat_map in J' as (c & _ & J'). unfold modify_one in J'. destruct (find _ _); [|destruct J']. destruct J' as [<-|[]]. exact Logic.I.
  - cbn. intros _ [<-|[]] _. left. exact Logic.I.
Qed.
Lemma ordered_start t s E I : allc E I -> ordered E (snd (fst (start t s))) I.
Proof.
  intros AC a e b H X. split; [exact AC|]. intros e' J. destruct (start_kind t s e e') as [K|K]; auto.
  - rewrite H. apply in_or_app. right. now left. - rewrite H. apply in_or_app. auto. - left. change I with ([] ++ I). now apply completeI_more.
Qed.
Lemma advance_ordered m I T : heard m I -> forall s E, pinv s E I -> allc E I -> ordered E (snd (advance T m s)) I.
Proof.
  intro H. induction T as [|t T IH]; intros s E P AC; cbn [advance]; [apply ordered_nil|].
  pose proof (start_due t s E I P AC) as D. pose proof (pinv_start t s E I P) as P'. pose proof (ordered_start t s E I AC) as O. destruct (start t s) as [[s1 ev] ps]. cbn [fst snd] in *. destruct D as [D1 D2].
  destruct (handle t m ps) as [|p0 r] eqn:X; [|exact O].
  assert (AC' : allc (E ++ ev) I). { intros e J. destruct (D1 e J) as [K|(pid & K1 & K2)]; [auto|]. destruct (handle_out t m ps pid e I H K1 K2) as [K|K]; [rewrite X in K; destruct K|auto]. }
  specialize (IH s1 _ P' AC'). destruct (advance T m s1) as [s2 ev2]. cbn [snd] in *. now apply ordered_app.
Qed.
Lemma coordinate_ordered m s E I : heard m I -> pinv s E I -> (forall e, In e E -> completeI e I \/ exists t ps pid, s_active s = Some (t, ps) /\ In pid ps /\ due t e pid) -> ordered E (snd (coordinate m s)) I.
Proof.
  intros H P C. unfold coordinate. destruct (s_active s) as [[t ps]|] eqn:X; [|apply ordered_nil]. destruct (handle t m ps) as [|p0 r] eqn:Y; [|apply ordered_nil].
  apply advance_ordered; auto. intros e J. destruct (C e J) as [K|(t' & ps' & pid & K1 & K2 & K3)]; [auto|]. injection K1 as <- <-. destruct (handle_out t m ps pid e I H K2 K3) as [K|K]; [rewrite Y in K; destruct K|auto].
Qed.
Lemma andthen_ordered t s E I : tinv s E I -> ordered E (snd (andthen t s)) I.
Proof.
  intros [A B C]. unfold andthen. destruct (s_active s) as [[t0 ps0]|] eqn:X; [apply ordered_nil|]. assert (AC : allc E I). { intros e J. destruct (C e J) as [K|(t' & ps' & pid & K1 & _)]; [auto|discriminate]. }
  pose proof (ordered_start t s E I AC) as O. destruct (start t s) as [[s1 ev] ps]. exact O.
Qed.
Lemma then_all_ordered I T : forall s E, pinv s E I -> tinv s E I -> ordered E (snd (then_all T s)) I.
Proof.
  induction T as [|t T IH]; intros s E P Ti; cbn [then_all]; [apply ordered_nil|]. pose proof (andthen_tinv t s E I P Ti) as H. pose proof (andthen_ordered t s E I Ti) as O. destruct (andthen t s) as [s1 e1]. destruct H as [H1 H2]. specialize (IH s1 _ H2 H1). destruct (then_all T s1) as [s2 e2]. cbn [snd] in *. now apply ordered_app.
Qed.
Lemma ordered_none E ev I : (forall e, In e ev -> acts e = false) -> ordered E ev I.
Proof. intros H a e b -> X. rewrite H in X; [discriminate|]. apply in_or_app. right. now left. Qed.
Lemma check_acts s e : In e (snd (check s)) -> acts e = false.
Proof. intro J. apply check_answers in J as (l & x & _ & _ & ->). reflexivity. Qed.
Lemma send_acts p x s e : acts x = false -> In e (send p x s) -> acts e = false.
Proof. unfold send. destruct (gone _ _); cbn; [tauto|]. intros H [<-|[]]. auto. Qed.
Lemma step_ordered s h i : reach s h -> possible h i -> ordered (effects h) (snd (step i s)) (inputs h ++ [i]).
Proof.
  intros R Po. pose proof (reach_einv s h R) as EI. destruct (reach_tinv s h R) as [TI ST]. pose proof (fun J => einv_pinv s _ _ i EI ST J) as PI.
  assert (TC : forall e, In e (effects h) -> completeI e (inputs h ++ [i]) \/ exists t ps pid, s_active s = Some (t, ps) /\ In pid ps /\ due t e pid). { intros e J. destruct (t_inc _ _ _ TI e J) as [K|K]; [left; now apply completeI_more|auto]. }
  destruct i as [m|l|p k|pid ipc n add rem|ipc n|ipc|k|p k|p k int names|f pid ipc|f pid qs|pid|pid|ipc|p k m| | |ipc].
  - apply then_all_ordered; [auto|]. now apply tinv_input.
  - apply ordered_none. intros e J. cbn [step] in J. destruct (lookup_cases l s) as [(_ & V & _)|[(x & _ & V & _)|(_ & _ & _ & [(_ & V)|(_ & _ & V)])]]; rewrite V in J.
    + apply absent_in in J as [_ ->]. reflexivity. + apply send_acts in J; auto. + destruct J as [<-|[]]. reflexivity. + destruct J.
  - apply ordered_none. intros e J. cbn [step] in J. unfold discard_lookup in J. destruct (existsb _ _); apply send_acts in J; auto.
  - apply ordered_none. intros e J. eapply check_acts; eauto.
  - apply ordered_none. intros e J. eapply check_acts; eauto.
  - apply ordered_none. intros e J. eapply check_acts; eauto.
  - apply ordered_none. intros e J. rewrite step_discovered, bind_snd in J. apply in_app_iff in J as [J|J]; [eapply check_acts; eauto|]. destruct (discovered_split k (fst (check s))) as [(l & _ & _ & _ & X)|[_ X]]; rewrite X in J; [|destruct J]. cbn [snd] in J. apply absent_in in J as [_ ->]. reflexivity.
  - apply ordered_none. intros e J. apply send_acts in J; auto.
  - apply ordered_none. intros e J. apply send_acts in J; auto.
  - cbn in Po. destruct Po as (_ & (c & Sp) & NC & _). assert (LT : pid < s_next s) by (destruct (e_fresh _ _ _ EI _ _ _ Sp); auto). specialize (PI LT). cbn [step]. rewrite bind_snd. apply ordered_app; [apply coordinate_ordered; auto; exists ipc; apply in_snoc; auto|]. apply ordered_none. intros e J. unfold connect in J. destruct (find_entity _ _); [|destruct J]. destruct J as [<-|[]]. reflexivity.
  - specialize (PI Logic.I). destruct f; cbn [step]; rewrite bind_snd; (apply ordered_app; [apply coordinate_ordered; auto; exact Logic.I|apply ordered_none]). + intros e []. + intros e J. eapply check_acts; eauto.
  - apply ordered_none. intros e [<-|[]]. reflexivity.
  - cbn in Po. destruct Po as (_ & Po). specialize (PI Po). cbn [step]. rewrite bind_snd. apply ordered_app; [apply coordinate_ordered; auto; apply in_snoc; auto|]. apply ordered_none. intros e [].
  - apply ordered_none. intros e [].
  - cbn [step]. rewrite bind_snd. unfold conform. pose proof (tinv_input s _ _ (Update p k m) eq_refl TI) as TI'. apply ordered_app; [apply then_all_ordered; auto|].
    pose proof (then_all_tinv (inputs h ++ [Update p k m]) (tasks_of (current s) m) s (effects h) (PI Logic.I) TI') as H. destruct (then_all _ s) as [s1 e1]. destruct H as [H1 H2]. cbn [fst snd]. now apply andthen_ordered.
  - cbn [step]. rewrite bind_snd. unfold conform. set (s1 := fst (discard_all (with_run Down s))). set (ev1 := snd (discard_all (with_run Down s))).
    assert (S0 : forall e, In e ev1 -> exists l, e = Answer (l_ipc l) (l_corr l) (l_name l) None) by (intros e J; unfold ev1 in J; cbn in J; apply in_flat_map in J as (l & _ & J); apply absent_in in J as [_ ->]; eauto).
    assert (S1 : forall e, In e ev1 -> still e) by (intros e J; destruct (S0 e J) as (l & ->); intro; exact Logic.I).
    assert (T1 : tinv s1 (effects h ++ ev1) (inputs h ++ [Shutdown])) by (apply (tinv_same s); auto; now apply tinv_input).
    assert (EI1 : einv s1 (effects h ++ ev1) (inputs h)). { apply (einv_same s); auto. intros e J f c pid ->. destruct (S0 _ J) as (l & X). discriminate. }
    assert (ST1 : stops (effects h ++ ev1)) by (apply stops_quiet; auto; now apply still_quiet).
    apply ordered_app; [apply ordered_none; intros e J; destruct (S0 _ J) as (l & ->); reflexivity|]. apply then_all_ordered; [|auto]. now apply einv_pinv.
  - apply ordered_none. intros e J. cbn [step] in J. destruct (s_run s); [destruct (ready s)| |]; cbn in J; try tauto. destruct J as [<-|[]]. reflexivity.
  - apply ordered_none. intros e [].
Qed.
Lemma one_at_a_time s h i ev a e b : reach s (h ++ [(i, ev)]) -> ev = a ++ e :: b -> acts e = true -> (forall e', In e' (effects h) -> complete e' (h ++ [(i, ev)])) /\ forall e', In e' a -> complete e' (h ++ [(i, ev)]) \/ same_kind e e'.
Proof.
  intros R H X. destruct (reach_inv _ _ _ _ R) as (s0 & R0 & Po & -> & E). pose proof (step_ordered s0 h i R0 Po) as O. rewrite <- E in O. destruct (O a e b H X) as [O1 O2]. split.
  - intros e' J. apply complete_is. rewrite inputs_snoc. auto.
  - intros e' J. destruct (O2 e' J) as [K|K]; [left; apply complete_is; rewrite inputs_snoc; auto|auto].
Qed.
(* ---- what is kept by the starts of tasks ---- *)
Definition keeps (P : state -> list effect -> list task -> Prop) : Prop :=
  (forall s E t T, P s E (t :: T) -> P (fst (fst (start t s))) (E ++ snd (fst (start t s))) T) /\ (forall a b s E T, P s E T -> P (with_coord a b s) E T).
Lemma advance_keeps P m T : keeps P -> forall s E, P s E T -> P (fst (advance T m s)) (E ++ snd (advance T m s)) (s_tasks (fst (advance T m s))).
Proof.
  intros [K1 K2]. induction T as [|t T IH]; intros s E H; cbn [advance].
  - cbn. rewrite app_nil_r. now apply K2.
  - pose proof (K1 s E t T H) as H'. destruct (start t s) as [[s1 ev] ps]. cbn [fst snd] in H'. destruct (handle t m ps).
    + specialize (IH s1 _ H'). destruct (advance T m s1) as [s2 ev2]. cbn [fst snd] in *. now rewrite app_assoc.
    + cbn. now apply K2.
Qed.
Lemma coordinate_keeps P m s E : keeps P -> P s E (s_tasks s) -> P (fst (coordinate m s)) (E ++ snd (coordinate m s)) (s_tasks (fst (coordinate m s))).
Proof.
  intros K H. unfold coordinate. destruct (s_active s) as [[t ps]|]; [|cbn; now rewrite app_nil_r]. destruct (handle t m ps); [now apply advance_keeps|]. cbn. rewrite app_nil_r. now apply K.
Qed.
Definition idle_ok (s : state) : Prop := s_active s = None -> s_tasks s = [].
Lemma andthen_keeps P t T s E : keeps P -> idle_ok s -> P s E (s_tasks s ++ t :: T) -> P (fst (andthen t s)) (E ++ snd (andthen t s)) (s_tasks (fst (andthen t s)) ++ T) /\ idle_ok (fst (andthen t s)).
Proof.
  intros [K1 K2] I H. unfold andthen, idle_ok in *. destruct (s_active s) as [[t0 ps0]|].
  - cbn. rewrite app_nil_r, <- app_assoc. split; [now apply K2|discriminate].
  - rewrite I in H by auto. cbn in H. pose proof (K1 s E t T H) as H'. destruct (start t s) as [[s1 ev] ps]. cbn [fst snd] in *. cbn. split; [now apply K2|auto].
Qed.
Lemma then_all_keeps P ts : forall T s E, keeps P -> idle_ok s -> P s E (s_tasks s ++ ts ++ T) -> P (fst (then_all ts s)) (E ++ snd (then_all ts s)) (s_tasks (fst (then_all ts s)) ++ T) /\ idle_ok (fst (then_all ts s)).
Proof.
  induction ts as [|t ts IH]; intros T s E K I H; cbn [then_all]; [cbn in *; rewrite app_nil_r; auto|]. destruct (andthen_keeps P t (ts ++ T) s E K I H) as [H1 I1]. destruct (andthen t s) as [s1 e1]. cbn [fst snd] in *. destruct (IH T s1 _ K I1 H1) as [H2 I2]. destruct (then_all ts s1) as [s2 e2]. cbn [fst snd] in *. rewrite app_assoc. auto.
Qed.
(* what is left is the end of what there was *)
Definition left_of (s : state) : list task := match s_active s with Some (t, _) => t :: s_tasks s | None => s_tasks s end.
Lemma advance_left m T : forall s, exists a, T = a ++ left_of (fst (advance T m s)).
Proof.
  induction T as [|t T IH]; intro s; cbn [advance]; [exists []; reflexivity|]. destruct (start t s) as [[s1 ev] ps]. destruct (handle t m ps).
  - destruct (IH s1) as (a & X). destruct (advance T m s1) as [s2 ev2]. cbn [fst] in *. exists (t :: a). cbn. now rewrite <- X.
  - exists []. reflexivity.
Qed.
Lemma coordinate_left m s : exists a, left_of s = a ++ left_of (fst (coordinate m s)).
Proof.
  unfold coordinate. destruct (s_active s) as [[t ps]|] eqn:X; [|exists []; reflexivity]. destruct (handle t m ps).
  - destruct (advance_left m (s_tasks s) s) as (a & Y). exists (t :: a). unfold left_of at 1. rewrite X. cbn. now rewrite <- Y.
  - exists []. unfold left_of at 1. rewrite X. reflexivity.
Qed.
Lemma andthen_left t s : idle_ok s -> exists a, left_of s ++ [t] = a ++ left_of (fst (andthen t s)).
Proof.
  unfold andthen, idle_ok. intro I. destruct (s_active s) as [[t0 ps0]|] eqn:X.
  - exists []. unfold left_of. rewrite X. reflexivity.
  - unfold left_of at 1. rewrite X, I by auto. destruct (start t s) as [[s1 ev] ps]. cbn. destruct ps; [exists [t]|exists []]; reflexivity.
Qed.
Lemma andthen_idle t s : idle_ok s -> idle_ok (fst (andthen t s)).
Proof. intro I. unfold andthen, idle_ok in *. destruct (s_active s) as [[t0 ps0]|]; [discriminate|]. destruct (start t s) as [[s1 ev] ps]. cbn. auto. Qed.
Lemma then_all_left ts : forall s, idle_ok s -> (exists a, left_of s ++ ts = a ++ left_of (fst (then_all ts s))) /\ idle_ok (fst (then_all ts s)).
Proof.
  induction ts as [|t ts IH]; intros s I; cbn [then_all]; [split; [exists []; now rewrite app_nil_r|auto]|]. destruct (andthen_left t s I) as (a & A). pose proof (andthen_idle t s I) as I1. destruct (andthen t s) as [s1 e1]. cbn [fst] in *. destruct (IH s1 I1) as [(b & B) I2]. destruct (then_all ts s1) as [s2 e2]. cbn [fst] in *. split; [|auto].
  exists (a ++ b). change (t :: ts) with ([t] ++ ts). rewrite app_assoc, A, <- !app_assoc. now rewrite B.
Qed.

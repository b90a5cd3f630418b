(* The queue manager: what is asked for is what runs when it has settled. *)
From Coq Require Import ZArith List Bool Lia.
From Verif Require Import QmgModel QmgSpec QmgProofs QmgEnt QmgQueues QmgOffers QmgLook QmgLook2 QmgAnswers QmgTasks QmgConform QmgConform2.
Import ListNotations.
Local Open Scope Z_scope.

Lemma knows_in l c : knows l c = true <-> exists d, In d l /\ c_alias d = c_alias c.
Proof. unfold knows. rewrite existsb_exists. split; intros (d & J & H); exists d; (split; [auto|]); [now apply Z.eqb_eq|now apply Z.eqb_eq]. Qed.
Lemma has_alias_in l e : has_alias l e = true <-> exists d, In d l /\ c_alias d = c_alias (e_conf e).
Proof. exact (knows_in l (e_conf e)). Qed.
Lemma conf_eqb_alias a b : conf_eqb a b = true -> c_alias a = c_alias b.
Proof. unfold conf_eqb. intro H. apply andb_prop in H as [H _]. now apply Z.eqb_eq. Qed.
Lemma added_in c cur w : In c (added cur w) <-> In c w /\ knows cur c = false.
Proof.
  unfold added, differ. rewrite !filter_In. split.
  - intros [[A _] B]. split; [auto|]. now apply negb_true_iff.
  - intros [A B]. split; [split; [auto|]|now rewrite B]. apply negb_true_iff. destruct (existsb _ _) eqn:X; auto. apply existsb_exists in X as (d & J & X). apply conf_eqb_alias in X. assert (knows cur c = true) by (apply knows_in; exists d; auto). congruence.
Qed.
Lemma removed_in c cur w : In c (removed cur w) <-> In c cur /\ knows w c = false.
Proof. unfold removed. rewrite filter_In, negb_true_iff. tauto. Qed.

(* ---- what there is and what is to come is what is wanted ---- *)
Definition unstopped (f : bool) (pid : Z) (E : list effect) : Prop := forall ipc, ~ In (Stop f pid ipc) E.
Record gap (f : bool) (w : list conf) (s : state) (E : list effect) (T : list task) : Prop := {
  g_gone : forall e, In e (entities f s) -> knows w (e_conf e) = true \/ (exists l, In (TRemove f l) T /\ has_alias l e = true) \/ exists ipc, In (Stop f (e_pid e) ipc) E;
  g_come : forall c', In c' w -> (exists c pid, In (Spawn f c pid) E /\ c_alias c = c_alias c' /\ unstopped f pid E) \/ exists l, In (TAdd f l) T /\ In c' l;
  g_rem : forall l c, In (TRemove f l) T -> In c l -> knows w c = false;
  g_add : forall l c, In (TAdd f l) T -> In c l -> In c w }.
Lemma stops_start t s E I : einv s E I -> stops E -> stops (E ++ snd (fst (start t s))).
Proof.
  intros EI ST g pid ipc J. apply in_app_iff in J as [J|J].
  - destruct (ST g pid ipc J) as (c & K). exists c. apply in_or_app; auto.
  - destruct t as [f l|f l|f l|p k]; cbn [start] in *.
    + pose proof (spawn_facts f l s) as F. destruct (spawn f l s) as [[s' ev] ps]. destruct F as (_ & F & _). cbn in J. destruct (F _ J) as (c & q & _ & X & _). discriminate.
    + cbn in J. apply in_map_iff in J as (e & X & J). injection X as -> <- <-. apply filter_In in J as [J _]. exists (e_conf e). apply in_or_app. left. now apply (e_live _ _ _ EI).
    + cbn in J. apply in_map_iff in J as (x & X & J). apply in_flat_map in J as (c & _ & J). unfold modify_one in J. destruct (find _ _); [|destruct J]. destruct J as [<-|[]]. discriminate.
    + cbn in J. destruct J as [J|[]]. discriminate.
Qed.
Definition live_inv (I : list input) (s : state) (E : list effect) : Prop := einv s E I /\ stops E.
Lemma unstopped_app f pid E ev : unstopped f pid E -> (forall ipc, ~ In (Stop f pid ipc) ev) -> unstopped f pid (E ++ ev).
Proof. intros A B ipc J. apply in_app_iff in J as [J|J]; [eapply A|eapply B]; eauto. Qed.
Lemma gap_keeps f w I : keeps (fun s E T => live_inv I s E /\ gap f w s E T).
Proof.
  split.
  - intros s E t T [[EI ST] [G1 G2 G3 G4]]. split; [split; [now apply einv_start|eapply stops_start; eauto]|].
    destruct t as [g l|g l|g l|p k]; cbn [start].
    + pose proof (spawn_facts g l s) as F. destruct (spawn g l s) as [[s' ev] ps]. destruct F as (N & F1 & F2 & F3 & F4 & F5). cbn [fst snd].
      assert (NS : forall h pid ipc, ~ In (Stop h pid ipc) ev) by (intros h pid ipc J; destruct (F1 _ J) as (c & q & _ & X & _); discriminate).
      split.
      * intros e J. assert (In e (entities f s) \/ (f = g /\ exists c p, In (Spawn g c p) ev /\ e = Entity c p 0 1)) as [J'|(-> & c & p & J1 & ->)]. { destruct (Bool.bool_dec f g) as [-> | X]; [apply F4 in J as [J|J]; auto|rewrite F5 in J by auto; auto]. }
        -- destruct (G1 e J') as [K|[(l' & [K|K] & K')|(ipc & K)]]; [auto|discriminate|eauto 6|right; right; exists ipc; apply in_or_app; auto].
        -- left. cbn. destruct (F1 _ J1) as (c0 & p0 & J2 & X & _). injection X as <- <-. apply knows_in. exists c. split; [|auto]. apply (G4 l c); cbn; auto.
      * intros c' J. destruct (G2 c' J) as [(c & pid & K1 & K2 & K3)|(l' & [K|K] & K')]; [left; exists c, pid; split; [apply in_or_app; auto|]; split; [auto|]; now apply unstopped_app| |eauto 6].
        injection K as -> ->. left. destruct (F3 c' K') as (p & K1 & K2). exists c', p. split; [apply in_or_app; auto|]. split; [auto|]. apply unstopped_app; [|auto]. intros ipc K3. destruct (ST _ _ _ K3) as (c0 & K4). destruct (e_fresh _ _ _ EI _ _ _ K4). destruct (F2 p K2) as [? _]. lia.
      * intros l' c K. apply (G3 l' c). now right.
      * intros l' c K. apply (G4 l' c). now right.
    + cbn [fst snd]. split.
      * intros e J. rewrite entities_with in J. destruct (Bool.eqb f g) eqn:X.
        -- apply eqb_prop in X as ->. apply in_map_iff in J as (e0 & X & J). assert (H : e_conf e = e_conf e0 /\ e_pid e = e_pid e0) by (destruct (has_alias l e0); subst e; auto). destruct H as [H1 H2]. rewrite H1, H2.
           destruct (G1 e0 J) as [K|[(l' & [K|K] & K')|(ipc & K)]]; [auto| | |right; right; exists ipc; apply in_or_app; auto].
           ++ injection K as <-. right. right. exists (e_ipc e0). apply in_or_app. right. apply in_map_iff. exists e0. split; [auto|]. now apply filter_In.
           ++ right. left. exists l'. split; [auto|]. unfold has_alias in *. now rewrite H1.
        -- destruct (G1 e J) as [K|[(l' & [K|K] & K')|(ipc & K)]]; [auto| |right; left; exists l'; auto|right; right; exists ipc; apply in_or_app; auto]. injection K as -> ->. rewrite eqb_reflx in X. discriminate.
      * intros c' J. destruct (G2 c' J) as [(c & pid & K1 & K2 & K3)|(l' & [K|K] & K')]; [|discriminate|eauto 6]. left. exists c, pid. split; [apply in_or_app; auto|]. split; [auto|]. apply unstopped_app; [auto|]. intros ipc K. apply in_map_iff in K as (e & X & K). injection X as -> Y _. apply filter_In in K as [K K4].
        apply has_alias_in in K4 as (d & K4 & K5). pose proof (G3 l d (or_introl eq_refl) K4) as K6. destruct (e_live _ _ _ EI f e K) as [K7 _]. rewrite Y in K7. destruct (e_uniq _ _ _ EI _ _ _ _ _ K1 K7) as [_ ->].
        assert (knows w d = true) by (apply knows_in; exists c'; split; [auto|congruence]). congruence.
      * intros l' c K. apply (G3 l' c). now right.
      * intros l' c K. apply (G4 l' c). now right.
    + cbn [fst snd]. assert (NS : forall h pid ipc, ~ In (Stop h pid ipc) (map fst (flat_map (modify_one g s) l))). { intros h pid ipc J. apply in_map_iff in J as (x & X & J). apply in_flat_map in J as (c & _ & J). unfold modify_one in J. destruct (find _ _); [|destruct J]. destruct J as [<-|[]]. discriminate. }
      split.
      * intros e J. destruct (G1 e J) as [K|[(l' & [K|K] & K')|(ipc & K)]]; [auto|discriminate|eauto 6|right; right; exists ipc; apply in_or_app; auto].
      * intros c' J. destruct (G2 c' J) as [(c & pid & K1 & K2 & K3)|(l' & [K|K] & K')]; [left; exists c, pid; split; [apply in_or_app; auto|]; split; [auto|]; now apply unstopped_app|discriminate|eauto 6].
      * intros l' c K. apply (G3 l' c). now right.
      * intros l' c K. apply (G4 l' c). now right.
    + cbn [fst snd]. split.
      * intros e J. destruct (G1 e J) as [K|[(l' & [K|K] & K')|(ipc & K)]]; [auto|discriminate|eauto 6|right; right; exists ipc; apply in_or_app; auto].
      * intros c' J. destruct (G2 c' J) as [(c & pid & K1 & K2 & K3)|(l' & [K|K] & K')]; [left; exists c, pid; split; [apply in_or_app; auto|]; split; [auto|]; apply unstopped_app; [auto|]; intros ipc [X|[]]; discriminate|discriminate|eauto 6].
      * intros l' c K. apply (G3 l' c). now right.
      * intros l' c K. apply (G4 l' c). now right.
  - intros a b s E T [[EI ST] [G1 G2 G3 G4]]. split; [split; [now apply einv_coord|auto]|]. destruct f; split; auto.
Qed.
(* when it's asked for *)
Lemma part_current f s : part f (current s) = map e_conf (entities f s).
Proof. destruct f; reflexivity. Qed.
Lemma tasks_part t cur m f : In t (tasks_of cur m) -> (forall l, t = TRemove f l -> l = removed (part f cur) (part f m)) /\ (forall l, t = TAdd f l -> l = added (part f cur) (part f m)).
Proof. intro J. apply in_tasks_of in J. destruct f; cbn [part]; (split; intros l ->); destruct J as [[J _]|[[J _]|[[J _]|[[J _]|[[J _]|[J _]]]]]]; congruence. Qed.
Lemma rem_task f cur m c : In c (removed (part f cur) (part f m)) -> In (TRemove f (removed (part f cur) (part f m))) (tasks_of cur m).
Proof. intro J. apply in_tasks_of. destruct f; cbn [part] in *; [left|right; left]; (split; [auto|]); intro X; rewrite X in J; destruct J. Qed.
Lemma add_task f cur m c : In c (added (part f cur) (part f m)) -> In (TAdd f (added (part f cur) (part f m))) (tasks_of cur m).
Proof. intro J. apply in_tasks_of. destruct f; cbn [part] in *; [right; right; right; left|right; right; left]; (split; [auto|]); intro X; rewrite X in J; destruct J. Qed.
Lemma gap_start f m s E T : (forall e, In e (entities f s) -> In (Spawn f (e_conf e) (e_pid e)) E /\ unstopped f (e_pid e) E) -> (forall l, ~ In (TRemove f l) T) -> (forall l, ~ In (TAdd f l) T) -> gap f (part f m) s E (tasks_of (current s) m ++ T).
Proof.
  intros L N1 N2. split.
  - intros e J. destruct (knows (part f m) (e_conf e)) eqn:X; [auto|]. right. left. assert (In (e_conf e) (removed (part f (current s)) (part f m))) as Y by (apply removed_in; split; [rewrite part_current; now apply in_map|auto]).
    eexists. split; [apply in_or_app; left; eapply rem_task; eauto|]. apply has_alias_in. exists (e_conf e). auto.
  - intros c' J. destruct (knows (part f (current s)) c') eqn:X.
    + apply knows_in in X as (d & X & Y). rewrite part_current in X. apply in_map_iff in X as (e & <- & X). destruct (L e X) as [L1 L2]. left. exists (e_conf e), (e_pid e). auto.
    + right. assert (In c' (added (part f (current s)) (part f m))) as Y by (now apply added_in). eexists. split; [apply in_or_app; left; eapply add_task; eauto|auto].
  - intros l c J K. apply in_app_iff in J as [J|J]; [|exfalso; eapply N1; eauto]. destruct (tasks_part _ _ _ f J) as [X _]. rewrite (X l eq_refl) in K. now apply removed_in in K.
  - intros l c J K. apply in_app_iff in J as [J|J]; [|exfalso; eapply N2; eauto]. destruct (tasks_part _ _ _ f J) as [_ X]. rewrite (X l eq_refl) in K. now apply added_in in K.
Qed.
Lemma settled_live s h f e : reach s h -> settled h -> In e (entities f s) -> In (Spawn f (e_conf e) (e_pid e)) (effects h) /\ unstopped f (e_pid e) (effects h).
Proof.
  intros R S J. pose proof (reach_einv s h R) as EI. destruct (e_live _ _ _ EI f e J) as [A B]. split; [auto|]. intros ipc K. specialize (S _ K). cbn in S. apply B. right. exact S.
Qed.
Lemma gap_calm f w s s' E ev T : (forall e, In e (entities f s') -> exists e', In e' (entities f s) /\ e_conf e' = e_conf e /\ e_pid e' = e_pid e) -> (forall e, In e ev -> acts e = false) -> gap f w s E T -> gap f w s' (E ++ ev) T.
Proof.
  intros A B [G1 G2 G3 G4]. assert (NS : forall h pid ipc, ~ In (Stop h pid ipc) ev) by (intros h pid ipc J; specialize (B _ J); discriminate). split; auto.
  - intros e J. destruct (A e J) as (e' & J' & X & Y). destruct (G1 e' J') as [K|[(l & K & K')|(ipc & K)]]; try rewrite X in K.
    + auto. + right. left. exists l. split; [auto|]. unfold has_alias in *. now rewrite <- X. + right. right. exists ipc. rewrite <- Y. apply in_or_app. auto.
  - intros c' J. destruct (G2 c' J) as [(c & pid & K1 & K2 & K3)|K]; [left|auto]. exists c, pid. split; [apply in_or_app; auto|]. split; [auto|]. now apply unstopped_app.
Qed.
Lemma reach_live s h : reach s h -> live_inv (inputs h) s (effects h).
Proof. intro R. split; [now apply reach_einv|]. now destruct (reach_tinv s h R). Qed.
Lemma gap_asked f m s h : reach s h -> settled h -> answered h -> gap f (part f m) (fst (conform (current s) m s)) (effects h ++ snd (conform (current s) m s)) (s_tasks (fst (conform (current s) m s))).
Proof.
  intros R S A. destruct (settled_idle s h R S A) as [X Y]. unfold conform.
  destruct (then_all_keeps _ (tasks_of (current s) m) [] s (effects h) (gap_keeps f (part f m) (inputs h)) (reach_idle _ _ R)) as [[_ H] _].
  - split; [now apply reach_live|]. rewrite Y. apply gap_start; [intros e J; eapply settled_live; eauto|intros l []|intros l []].
  - rewrite app_nil_r in H. exact H.
Qed.
Lemma gap_tell f w s E p k : idle_ok s -> (exists I, live_inv I s E) -> gap f w s E (s_tasks s) -> gap f w (fst (andthen (TTell p k) s)) (E ++ snd (andthen (TTell p k) s)) (s_tasks (fst (andthen (TTell p k) s))).
Proof.
  intros IO (I & L) [G1 G2 G3 G4]. destruct (andthen_keeps _ (TTell p k) [] s E (gap_keeps f w I) IO) as [[_ H] _].
  - split; [auto|]. split.
    + intros e J. destruct (G1 e J) as [K|[(l & K & K')|K]]; [auto|right; left; exists l; split; [apply in_or_app; auto|auto]|auto].
    + intros c' J. destruct (G2 c' J) as [K|(l & K & K')]; [auto|right; exists l; split; [apply in_or_app; auto|auto]].
    + intros l c J. apply in_app_iff in J as [J|[J|[]]]; [eauto|discriminate].
    + intros l c J. apply in_app_iff in J as [J|[J|[]]]; [eauto|discriminate].
  - rewrite app_nil_r in H. exact H.
Qed.
Lemma conform_live I cur m s E : live_inv I s E -> idle_ok s -> live_inv I (fst (conform cur m s)) (E ++ snd (conform cur m s)) /\ idle_ok (fst (conform cur m s)).
Proof.
  intros L IO. unfold conform. apply (then_all_keeps (fun s E _ => live_inv I s E) (tasks_of cur m) [] s E); auto. split; [|intros a b s0 E0 T [X Y]; split; [now apply einv_coord|auto]]. intros s0 E0 t T [X Y]. split; [now apply einv_start|eapply stops_start; eauto].
Qed.
Lemma settled_nil : settled [].
Proof. intros e []. Qed.
Lemma answered_nil : answered [].
Proof. intros p k m []. Qed.
Lemma wants_gap m f h : wants m h -> forall s, reach s h -> gap f (part f m) s (effects h) (s_tasks s).
Proof.
  induction 1 as [ev|h p k ev S A|h ev -> S A|h i ev W IH A]; intros s R.
  - destruct (reach_inv s [] (Begin m) ev R) as (s0 & R0 & Po & -> & ->). inversion R0 as [|x y z V U X]; [|destruct y; discriminate]. subst. pose proof (gap_asked f m state0 [] R0 settled_nil answered_nil) as H. cbn [step effects flat_map snd]. rewrite app_nil_r. exact H.
  - destruct (reach_inv s h _ ev R) as (s0 & R0 & Po & -> & ->). rewrite effects_snoc. cbn [step]. rewrite bind_fst, bind_snd, app_assoc. destruct (conform_live _ (current s0) m s0 _ (reach_live _ _ R0) (reach_idle _ _ R0)) as [L IO]. apply gap_tell; [auto|eauto|]. now apply gap_asked.
  - destruct (reach_inv s h _ ev R) as (s0 & R0 & Po & -> & ->). rewrite effects_snoc. cbn [step]. rewrite bind_fst, bind_snd. set (s1 := fst (discard_all (with_run Down s0))). set (ev1 := snd (discard_all (with_run Down s0))). destruct (settled_idle s0 h R0 S A) as [X Y].
    assert (N : forall e, In e ev1 -> acts e = false) by (intros e J; eapply shutdown_effects; eauto).
    assert (L1 : live_inv (inputs h) s1 (effects h ++ ev1)). { destruct (reach_live _ _ R0) as [EI ST]. split; [apply (einv_same s0); auto; intros e J f' c pid ->; specialize (N _ J); discriminate|]. apply stops_quiet; auto. intros f' pid ipc J. specialize (N _ J). discriminate. }
    assert (IO : idle_ok s1) by (intro; exact Y).
    unfold conform. destruct (then_all_keeps _ (tasks_of (current s1) (Model [] [])) [] s1 (effects h ++ ev1) (gap_keeps f (part f (Model [] [])) (inputs h)) IO) as [[_ H] _].
    + split; [auto|]. change (s_tasks s1) with (s_tasks s0). rewrite Y. apply gap_start; [|intros l []|intros l []]. intros e J. assert (J' : In e (entities f s0)) by (destruct f; exact J). destruct (settled_live s0 h f e R0 S J') as [B C]. split; [apply in_or_app; auto|]. apply unstopped_app; auto. intros ipc K. specialize (N _ K). discriminate.
    + rewrite app_nil_r in H. rewrite app_assoc. exact H.
  - destruct (reach_inv s h i ev R) as (s0 & R0 & Po & -> & ->). rewrite effects_snoc. specialize (IH s0 R0). destruct (frame i s0 A) as (s1 & ev1 & ev2 & C & -> & N & _ & -> & F). rewrite app_assoc. apply (gap_calm f (part f m) s1); [intros e J; destruct (F f e J) as (e' & J1 & J2 & J3 & _); eauto|auto|].
    destruct C as [[-> ->]|(msg & -> & ->)]; [now rewrite app_nil_r|]. apply (coordinate_keeps _ msg s0 (effects h) (gap_keeps f (part f m) (inputs h))). split; [now apply reach_live|auto].
Qed.
Lemma conforms s h m f : reach s h -> wants m h -> settled h -> answered h ->
  (forall c pid, live f c pid h -> exists c', In c' (part f m) /\ c_alias c' = c_alias c)
  /\ forall c', In c' (part f m) -> exists c pid, In (Spawn f c pid) (effects h) /\ c_alias c = c_alias c' /\ forall ipc, ~ In (Stop f pid ipc) (effects h).
Proof.
  intros R W S A. destruct (wants_gap m f h W s R) as [G1 G2 G3 G4]. destruct (settled_idle s h R S A) as [X Y]. rewrite Y in *. split.
  - intros c pid [L1 L2]. destruct (e_there _ _ _ (reach_einv s h R) f c pid L1 L2) as (e & J & <- & <-). destruct (G1 e J) as [K|[(l & [] & _)|(ipc & K)]]; [now apply knows_in|]. specialize (S _ K). cbn in S. exfalso. apply L2. right. exact S.
  - intros c' J. destruct (G2 c' J) as [K|(l & [] & _)]. exact K.
Qed.

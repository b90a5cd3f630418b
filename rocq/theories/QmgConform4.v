(* The queue manager: no group runs twice, when it's ready, and when it's done. *)
From Coq Require Import ZArith List Bool Lia.
From Verif Require Import QmgModel QmgSpec QmgProofs QmgEnt QmgQueues QmgOffers QmgLook QmgLook2 QmgAnswers QmgTasks QmgConform QmgConform2 QmgConform3.
Import ListNotations.
Local Open Scope Z_scope.

(* ---- one process for each alias ---- *)
Definition is_add (f : bool) (t : task) : bool := match t with TAdd g _ => Bool.eqb g f | _ => false end.
Record single (f : bool) (s : state) (E : list effect) (T : list task) : Prop := {
  u_one : forall e e', In e (entities f s) -> In e' (entities f s) -> c_alias (e_conf e) = c_alias (e_conf e') -> e_pid e = e_pid e';
  u_tasks : (count (is_add f) T <= 1)%nat;
  u_new : forall l, In (TAdd f l) T -> NoDup (map c_alias l) /\ forall c e, In c l -> In e (entities f s) -> c_alias c <> c_alias (e_conf e) }.
Lemma spawn_single f l : forall s, NoDup (map c_alias l) -> (forall c e, In c l -> In e (entities f s) -> c_alias c <> c_alias (e_conf e)) -> (forall e e', In e (entities f s) -> In e' (entities f s) -> c_alias (e_conf e) = c_alias (e_conf e') -> e_pid e = e_pid e') ->
  forall e e', In e (entities f (fst (fst (spawn f l s)))) -> In e' (entities f (fst (fst (spawn f l s)))) -> c_alias (e_conf e) = c_alias (e_conf e') -> e_pid e = e_pid e'.
Proof.
  induction l as [|c l IH]; intros s N D U; cbn [spawn]; [exact U|]. set (s1 := with_entities f (entities f s ++ [Entity c (s_next s) 0 1]) (with_next (s_next s + 1) s)).
  assert (X : entities f s1 = entities f s ++ [Entity c (s_next s) 0 1]) by (unfold s1; now rewrite entities_with, eqb_reflx). cbn in N. apply NoDup_cons_iff in N as [N1 N2].
  specialize (IH s1 N2). destruct (spawn f l s1) as [[s' ev] ps]. apply IH; rewrite X.
  - intros c' e J J'. apply in_snoc in J' as [J'|J']; [apply D; cbn; auto|]. subst e. cbn. intro Y. apply N1. rewrite <- Y. now apply in_map.
  - intros e e' J J' Y. apply in_snoc in J as [J|J]; apply in_snoc in J' as [J'|J']; [auto| | |subst; auto]; exfalso; subst; cbn in Y.
    + apply (D c e); cbn; auto. + apply (D c e'); cbn; auto.
Qed.
Lemma single_keeps f : keeps (single f).
Proof.
  split.
  - intros s E t T [U C N]. rewrite count_cons in C. assert (N' : forall l, In (TAdd f l) T -> NoDup (map c_alias l) /\ forall c e, In c l -> In e (entities f s) -> c_alias c <> c_alias (e_conf e)) by (intros l J; apply N; now right).
    destruct t as [g l|g l|g l|p k]; cbn [start].
    + pose proof (spawn_facts g l s) as F. pose proof (spawn_single g l s) as G. destruct (spawn g l s) as [[s' ev] ps]. destruct F as (_ & _ & _ & _ & _ & F). cbn [fst snd] in *. destruct (Bool.bool_dec g f) as [-> | X].
      * cbn in C. rewrite eqb_reflx in C. destruct (N l (or_introl eq_refl)) as [A B]. split; [now apply G|lia|]. intros l' J. exfalso. assert (0 < count (is_add f) T)%nat; [|lia]. apply count_pos. exists (TAdd f l'). split; [auto|]. cbn. apply eqb_reflx.
      * split; [rewrite F by auto; exact U|lia|]. rewrite F by auto. exact N'.
    + cbn [fst snd]. assert (X : forall e, In e (entities f (with_entities g (map (fun e => if has_alias l e then set_life 4 e else e) (entities g s)) s)) -> exists e0, In e0 (entities f s) /\ e_conf e = e_conf e0 /\ e_pid e = e_pid e0).
      { intros e J. rewrite entities_with in J. destruct (Bool.eqb f g) eqn:X; [|eauto]. apply eqb_prop in X as ->. apply in_map_iff in J as (e0 & X & J). exists e0. split; [auto|]. destruct (has_alias l e0); subst e; auto. }
      split.
      * intros e e' J J' Y. destruct (X e J) as (e0 & J0 & A & B). destruct (X e' J') as (e1 & J1 & A' & B'). rewrite B, B'. apply U; auto. congruence.
      * lia.
      * intros l' J. destruct (N' l' J) as [A B]. split; [auto|]. intros c e K K'. destruct (X e K') as (e0 & J0 & A' & B'). rewrite A'. auto.
    + cbn [fst snd]. split; auto; lia.
    + cbn [fst snd]. split; auto; lia.
  - intros a b s E T [U C N]. destruct f; split; auto.
Qed.
Lemma filter_nodup {A B} (g : A -> B) p l : NoDup (map g l) -> NoDup (map g (filter p l)).
Proof.
  induction l as [|x l IH]; cbn; intro N; [constructor|]. apply NoDup_cons_iff in N as [N1 N2]. destruct (p x); [|auto]. cbn. constructor; [|auto]. intro J. apply N1. apply in_map_iff in J as (y & <- & J). apply in_map. now apply filter_In in J.
Qed.
Lemma added_nodup cur w : distinct w -> NoDup (map c_alias (added cur w)).
Proof. intro D. unfold added, differ. now apply filter_nodup, filter_nodup. Qed.
Lemma task_of_count f (k : list conf -> task) l : (count (is_add f) (task_of k l) <= if is_add f (k l) then 1 else 0)%nat.
Proof. unfold task_of. destruct l; [destruct (is_add f _); cbn; lia|]. rewrite count_cons, count_nil. destruct (is_add f _); lia. Qed.
Lemma tasks_adds f cur m : (count (is_add f) (tasks_of cur m) <= 1)%nat.
Proof.
  unfold tasks_of. rewrite !count_app.
  pose proof (task_of_count f (TRemove true) (removed (m_forwards cur) (m_forwards m))) as A1. pose proof (task_of_count f (TRemove false) (removed (m_groups cur) (m_groups m))) as A2.
  pose proof (task_of_count f (TAdd false) (added (m_groups cur) (m_groups m))) as A3. pose proof (task_of_count f (TAdd true) (added (m_forwards cur) (m_forwards m))) as A4.
  pose proof (task_of_count f (TModify true) (modified (m_forwards cur) (m_forwards m))) as A5. pose proof (task_of_count f (TModify false) (modified (m_groups cur) (m_groups m))) as A6.
  destruct f; cbn [is_add Bool.eqb] in *; lia.
Qed.
Lemma single_start f m s E T : distinct (part f m) -> (forall e e', In e (entities f s) -> In e' (entities f s) -> c_alias (e_conf e) = c_alias (e_conf e') -> e_pid e = e_pid e') -> count (is_add f) T = 0%nat -> single f s E (tasks_of (current s) m ++ T).
Proof.
  intros D U C. split; [auto|rewrite count_app; pose proof (tasks_adds f (current s) m); lia|]. intros l J. apply in_app_iff in J as [J|J].
  - destruct (tasks_part _ _ _ f J) as [_ X]. rewrite (X l eq_refl). split; [now apply added_nodup|]. intros c e K K' Y. apply added_in in K as [_ K]. assert (knows (part f (current s)) c = true); [|congruence]. apply knows_in. rewrite part_current. exists (e_conf e). split; [now apply in_map|auto].
  - exfalso. assert (0 < count (is_add f) T)%nat; [|lia]. apply count_pos. exists (TAdd f l). split; [auto|]. cbn. apply eqb_reflx.
Qed.
Lemma single_less f s s' E E' T : (forall e, In e (entities f s') -> exists e', In e' (entities f s) /\ e_conf e' = e_conf e /\ e_pid e' = e_pid e) -> single f s E T -> single f s' E' T.
Proof.
  intros X [U C N]. split; [|auto|].
  - intros e e' J J' Y. destruct (X e J) as (e0 & J0 & A & B). destruct (X e' J') as (e1 & J1 & A' & B'). rewrite <- B, <- B'. apply U; auto. congruence.
  - intros l' J. destruct (N l' J) as [A B]. split; [auto|]. intros c e K K'. destruct (X e K') as (e0 & J0 & A' & B'). rewrite <- A'. auto.
Qed.
Lemma single_asked f m s h i : reach s h -> settled h -> answered h -> distinct (part f m) -> single f s (effects h) (s_tasks s) -> asks i = true -> (forall m', i = Begin m' -> h = [] /\ m' = m) -> (forall p k m', i = Update p k m' -> m' = m) -> (i = Shutdown -> m = Model [] []) ->
  single f (fst (step i s)) (effects h ++ snd (step i s)) (s_tasks (fst (step i s))).
Proof.
  intros R S A D [U C N] Q B1 B2 B3. destruct (settled_idle s h R S A) as [X Y]. pose proof (reach_idle _ _ R) as IO. destruct i; try discriminate; cbn [step].
  - destruct (B1 _ eq_refl) as [-> ->]. assert (s = state0) as -> by (inversion R as [|x y z V W Z]; [auto|destruct y; discriminate]). unfold conform. change (Model [] []) with (current state0).
    destruct (then_all_keeps _ (tasks_of (current state0) m) [] state0 [] (single_keeps f) (fun _ => eq_refl)) as [H _]; [cbn [s_tasks state0 app]; now apply single_start|]. rewrite app_nil_r in H. exact H.
  - rewrite (B2 _ _ _ eq_refl) in *. rewrite bind_fst, bind_snd, app_assoc. unfold conform.
    destruct (then_all_keeps _ (tasks_of (current s) m) [TTell p k] s (effects h) (single_keeps f) IO) as [H1 I1]; [rewrite Y; now apply single_start|].
    destruct (andthen_keeps _ (TTell p k) [] _ _ (single_keeps f) I1 H1) as [H2 _]. rewrite app_nil_r in H2. exact H2.
  - rewrite (B3 eq_refl) in *. rewrite bind_fst, bind_snd, app_assoc. unfold conform. set (s1 := fst (discard_all (with_run Down s))). set (ev1 := snd (discard_all (with_run Down s))).
    destruct (then_all_keeps _ (tasks_of (current s1) (Model [] [])) [] s1 (effects h ++ ev1) (single_keeps f) (fun _ => Y)) as [H _]; [change (s_tasks s1) with (s_tasks s); rewrite Y; apply single_start; auto; destruct f; exact U|]. rewrite app_nil_r in H. exact H.
Qed.
Lemma begin_first s h i m : reach s h -> possible h i -> i = Begin m -> h = [].
Proof. intros _ Po ->. now destruct Po. Qed.
Lemma calm_single f h : calm h -> forall s, reach s h -> single f s (effects h) (s_tasks s).
Proof.
  induction 1 as [m ev|h i ev W IH S A Q|h i ev W IH A]; intros s R.
  - destruct (reach_inv s [] (Begin m) ev R) as (s0 & R0 & Po & -> & ->). assert (s0 = state0) as -> by (inversion R0 as [|x y z V U X]; [auto|destruct y; discriminate]). cbn [effects flat_map snd]. rewrite app_nil_r.
    apply (single_asked f m state0 [] (Begin m) R0 settled_nil answered_nil); auto; try discriminate.
    + destruct Po as (_ & D1 & D2). destruct f; auto.
    + destruct f; (split; [intros e e' []|cbn; lia|intros l []]).
    + intros m' X. injection X as <-. auto.
  - destruct (reach_inv s h i ev R) as (s0 & R0 & Po & -> & ->). rewrite effects_snoc. destruct i; try discriminate.
    + destruct Po as [-> _]. inversion W; destruct h; discriminate.
    + apply (single_asked f m s0 h); auto; try discriminate. * destruct Po as (_ & D1 & D2 & _). destruct f; auto. * intros p' k' m' X. now injection X as -> -> ->.
    + apply (single_asked f (Model [] []) s0 h); auto; try discriminate. destruct f; constructor.
  - destruct (reach_inv s h i ev R) as (s0 & R0 & Po & -> & ->). rewrite effects_snoc. specialize (IH s0 R0). destruct (frame i s0 A) as (s1 & ev1 & ev2 & C & -> & N & _ & -> & F). rewrite app_assoc. apply (single_less f s1 _ (effects h ++ ev1)); [intros e J; destruct (F f e J) as (e' & J1 & J2 & J3 & _); eauto|].
    destruct C as [[-> ->]|(msg & -> & ->)]; [now rewrite app_nil_r|]. now apply (coordinate_keeps _ msg s0 (effects h) (single_keeps f)).
Qed.
Lemma one_process s h f c c' pid pid' : reach s h -> calm h -> live f c pid h -> live f c' pid' h -> c_alias c = c_alias c' -> pid = pid'.
Proof.
  intros R C [A1 A2] [B1 B2] Y. pose proof (reach_einv s h R) as EI. destruct (e_there _ _ _ EI f c pid A1 A2) as (e & J & <- & <-). destruct (e_there _ _ _ EI f c' pid' B1 B2) as (e' & J' & <- & <-). exact (u_one _ _ _ _ (calm_single f h C s R) e e' J J' Y).
Qed.

(* ---- ready and done ---- *)
Definition grown (I : list input) (s : state) (E : list effect) (_ : list task) : Prop := forall f e, In e (entities f s) -> (3 <= e_life e)%nat -> (exists qs, In (Configured f (e_pid e) qs) I) \/ exists ipc, In (Stop f (e_pid e) ipc) E.
Lemma grown_more I s E ev T i : grown I s E T -> grown (I ++ [i]) s (E ++ ev) T.
Proof. intros G f e J L. destruct (G f e J L) as [(q & K)|(q & K)]; [left|right]; exists q; apply in_or_app; auto. Qed.
Lemma grown_keeps I : keeps (grown I).
Proof.
  split.
  - intros s E t T G. destruct t as [g l|g l|g l|p k]; cbn [start].
    + pose proof (spawn_facts g l s) as F. destruct (spawn g l s) as [[s' ev] ps]. destruct F as (_ & _ & _ & _ & F4 & F5). cbn [fst snd]. intros f e J L.
      assert (In e (entities f s) \/ exists c p, e = Entity c p 0 1) as [J'|(c & p & ->)]. { destruct (Bool.bool_dec f g) as [-> | X]; [apply F4 in J as [J|(c & p & _ & J)]; eauto|rewrite F5 in J by auto; auto]. }
      * destruct (G f e J' L) as [K|(q & K)]; [auto|right; exists q; apply in_or_app; auto].
      * cbn in L. lia.
    + cbn [fst snd]. intros f e J L. rewrite entities_with in J. destruct (Bool.eqb f g) eqn:X.
      * apply eqb_prop in X as ->. apply in_map_iff in J as (e0 & X & J). destruct (has_alias l e0) eqn:Y; subst e.
        -- right. exists (e_ipc e0). apply in_or_app. right. apply in_map_iff. exists e0. split; [auto|]. now apply filter_In.
        -- destruct (G g e0 J L) as [K|(q & K)]; [auto|right; exists q; apply in_or_app; auto].
      * destruct (G f e J L) as [K|(q & K)]; [auto|right; exists q; apply in_or_app; auto].
    + cbn [fst snd]. intros f e J L. destruct (G f e J L) as [K|(q & K)]; [auto|right; exists q; apply in_or_app; auto].
    + cbn [fst snd]. intros f e J L. destruct (G f e J L) as [K|(q & K)]; [auto|right; exists q; apply in_or_app; auto].
  - intros a b s E T G f e J. apply (G f e). destruct f; exact J.
Qed.
Lemma reach_grown s h : reach s h -> grown (inputs h) s (effects h) [].
Proof.
  induction 1 as [|s h i R IH Po]; [intros [] e []|]. rewrite effects_snoc, inputs_snoc. pose proof (reach_idle _ _ R) as IO. destruct (asks i) eqn:A.
  - pose proof (grown_more _ _ _ [] _ i IH) as G. rewrite app_nil_r in G. destruct i; try discriminate; cbn [step].
    + unfold conform. destruct (then_all_keeps _ (tasks_of (Model [] []) m) [] s (effects h) (grown_keeps (inputs h ++ [Begin m])) IO G) as [H _]. exact H.
    + rewrite bind_fst, bind_snd, app_assoc. unfold conform. destruct (then_all_keeps _ (tasks_of (current s) m) [TTell p k] s (effects h) (grown_keeps (inputs h ++ [Update p k m])) IO G) as [H1 I1]. destruct (andthen_keeps _ (TTell p k) [] _ _ (grown_keeps _) I1 H1) as [H2 _]. exact H2.
    + rewrite bind_fst, bind_snd, app_assoc. unfold conform. set (s1 := fst (discard_all (with_run Down s))). set (ev1 := snd (discard_all (with_run Down s))).
      assert (G1 : grown (inputs h ++ [Shutdown]) s1 (effects h ++ ev1) []) by (intros f e J L; apply (grown_more _ _ _ ev1 _ Shutdown IH f e); [destruct f; exact J|auto]).
      destruct (then_all_keeps _ (tasks_of (current s1) (Model [] [])) [] s1 (effects h ++ ev1) (grown_keeps (inputs h ++ [Shutdown])) IO G1) as [H _]. exact H.
  - destruct (frame i s A) as (s1 & ev1 & ev2 & C & -> & N & _ & _ & F). rewrite app_assoc.
    assert (G1 : grown (inputs h) s1 (effects h ++ ev1) []). { destruct C as [[-> ->]|(msg & -> & ->)]; [now rewrite app_nil_r|]. exact (coordinate_keeps _ msg s (effects h) (grown_keeps (inputs h)) IH). }
    intros f e J L. destruct (F f e J) as (e' & J1 & J2 & J3 & _ & J4). destruct (J4 L) as [K|(qs & ->)]; [|left; exists qs; apply in_snoc; auto]. rewrite <- J3. apply (grown_more _ _ _ ev2 _ i G1 f e' J1 K).
Qed.
Lemma ready_only s h i ev : reach s (h ++ [(i, ev)]) -> In Ready ev -> i = Idle /\ ~ down h /\ forall f c pid, live f c pid h -> (exists qs, In (Configured f pid qs) (inputs h)) \/ exists ipc, In (Stop f pid ipc) (effects h).
Proof.
  intros R J. destruct (reach_inv s h i ev R) as (s0 & R0 & Po & -> & ->). pose proof (reach_grown s0 h R0) as G. pose proof (reach_linv _ _ R0) as V. pose proof (reach_einv s0 h R0) as EI.
  assert (X : i = Idle).
  { assert (K0 : keeps (fun _ E _ => ~ In Ready E)).
    { split; [|auto]. intros s1 E t T H K. apply in_app_iff in K as [K|K]; [auto|]. destruct t as [g l|g l|g l|p k]; cbn [start] in K.
      - pose proof (spawn_facts g l s1) as F. destruct (spawn g l s1) as [[s' ev] ps]. destruct F as (_ & F & _). cbn in K. destruct (F _ K) as (c & q & _ & X & _). discriminate.
      - cbn in K. apply in_map_iff in K as (e & X & _). discriminate.
      - cbn in K. apply in_map_iff in K as (x & X & K). apply in_flat_map in K as (c & _ & K). unfold modify_one in K. destruct (find _ _); [|destruct K]. destruct K as [<-|[]]. discriminate.
      - cbn in K. destruct K as [K|[]]. discriminate. }
    assert (CO : forall m s1, ~ In Ready (snd (coordinate m s1))). { intros m s1 K. pose proof (coordinate_keeps _ m s1 [] K0 (fun x => x)) as H. cbn in H. auto. }
    assert (TA : forall ts s1, idle_ok s1 -> ~ In Ready (snd (then_all ts s1)) /\ idle_ok (fst (then_all ts s1))). { intros ts s1 IO. destruct (then_all_keeps _ ts [] s1 [] K0 IO (fun x => x)) as [H1 H2]. cbn in H1. auto. }
    pose proof (reach_idle _ _ R0) as IO.
    destruct i as [m|l|p k|pid ipc n add rem|ipc n|ipc|k|p k|p k int names|f pid ipc|f pid qs|pid|pid|ipc|p k m| | |ipc]; auto; exfalso; cbn [step] in J.
    - eapply TA; eauto.
    - destruct (lookup_cases l s0) as [(_ & W & _)|[(x & _ & W & _)|(_ & _ & _ & [(_ & W)|(_ & _ & W)])]]; rewrite W in J; [apply absent_in in J as [_ J]; discriminate| |destruct J as [J|[]]; discriminate|destruct J]. unfold send in J. destruct (gone _ _); [destruct J|destruct J as [J|[]]; discriminate].
    - unfold discard_lookup in J. destruct (existsb _ _); cbn in J; unfold send in J; destruct (gone _ _); cbn in J; intuition discriminate.
    - apply check_answers in J as (l & x & _ & _ & J). discriminate.
    - apply check_answers in J as (l & x & _ & _ & J). discriminate.
    - apply check_answers in J as (l & x & _ & _ & J). discriminate.
    - rewrite bind_snd in J. apply in_app_iff in J as [J|J]; [apply check_answers in J as (l & x & _ & _ & J); discriminate|]. destruct (find _ _) as [l|]; [|destruct J]. destruct (l_wait l); [destruct J|]. apply absent_in in J as [_ J]. discriminate.
    - cbn in J. unfold send in J. destruct (gone _ _); cbn in J; intuition discriminate.
    - cbn in J. unfold send in J. destruct (gone _ _); cbn in J; intuition discriminate.
    - rewrite bind_snd in J. apply in_app_iff in J as [J|J]; [eapply CO; eauto|]. unfold connect in J. destruct (find_entity _ _); cbn in J; intuition discriminate.
    - destruct f; rewrite bind_snd in J; (apply in_app_iff in J as [J|J]; [eapply CO; eauto|]); [destruct J|]. apply check_answers in J as (l & x & _ & _ & J). discriminate.
    - cbn in J. intuition discriminate.
    - rewrite bind_snd in J. apply in_app_iff in J as [J|J]; [eapply CO; eauto|destruct J].
    - destruct J.
    - rewrite bind_snd in J. unfold conform in J. destruct (TA (tasks_of (current s0) m) s0 IO) as [T1 T2]. apply in_app_iff in J as [J|J]; [auto|]. destruct (andthen_keeps _ (TTell p k) [] _ [] K0 T2 (fun x => x)) as [H _]. cbn in H. auto.
    - rewrite bind_snd in J. unfold conform in J. apply in_app_iff in J as [J|J]; [|eapply TA; [|eauto]; exact IO]. cbn in J. apply in_flat_map in J as (l & _ & J). apply absent_in in J as [_ J]. discriminate.
    - destruct J. }
  split; [auto|]. subst i. cbn [step] in J. destruct (s_run s0) eqn:X; [destruct (ready s0) eqn:Y; [|destruct J]|destruct J|destruct J]. split.
  - intro D. apply (v_down _ _ V) in D. unfold is_down in D. rewrite X in D. discriminate.
  - intros f c pid [L1 L2]. destruct (e_there _ _ _ EI f c pid L1 L2) as (e & K & <- & <-). apply (G f e K). unfold ready in Y. apply andb_prop in Y as [Y1 Y2]. rewrite forallb_forall in Y1, Y2. destruct f; [specialize (Y2 e K)|specialize (Y1 e K)]; now apply Nat.leb_le.
Qed.
Lemma done_iff s h : reach s h -> done s = true <-> down h /\ forall f c pid, ~ live f c pid h.
Proof.
  intro R. pose proof (reach_linv _ _ R) as V. pose proof (reach_einv s h R) as EI. unfold done. rewrite andb_true_iff. split.
  - intros [A B]. split; [now apply (v_down _ _ V)|]. intros f c pid [L1 L2]. destruct (e_there _ _ _ EI f c pid L1 L2) as (e & K & _). destruct f; cbn in K; destruct (s_groups s), (s_forwards s); try discriminate; destruct K.
  - intros [A B]. split; [now apply (v_down _ _ V)|]. assert (X : forall f e, ~ In e (entities f s)). { intros f e J. destruct (e_live _ _ _ EI f e J) as [K1 K2]. apply (B f (e_conf e) (e_pid e)). split; auto. }
    destruct (s_groups s) as [|e r] eqn:Y; [|exfalso; apply (X false e); cbn; rewrite Y; now left]. destruct (s_forwards s) as [|e r] eqn:W; [auto|exfalso; apply (X true e); cbn; rewrite W; now left].
Qed.
Lemma ends s h : reach s h -> down h -> wants (Model [] []) h -> settled h -> answered h -> done s = true.
Proof.
  intros R D W S A. apply (done_iff s h R). split; [auto|]. intros f c pid L. destruct (conforms s h _ f R W S A) as [H _]. destruct (H c pid L) as (c' & J & _). destruct f; destruct J.
Qed.

(* ---- it's ready when all have told that they have their configuration ---- *)
Definition met (I : list input) : Prop := forall f pid qs, In (Configured f pid qs) I -> exists ipc, In (Connect f pid ipc) I.
Definition ripe (I : list input) (s : state) (E : list effect) (_ : list task) : Prop := einv s E I /\ forall f e qs, In e (entities f s) -> In (Configured f (e_pid e) qs) I -> (3 <= e_life e)%nat.
Lemma ripe_keeps I : met I -> keeps (ripe I).
Proof.
  intro M. split.
  - intros s E t T (EI & G). split; [now apply einv_start|]. destruct t as [g l|g l|g l|p k]; cbn [start].
    + pose proof (spawn_facts g l s) as F. destruct (spawn g l s) as [[s' ev] ps]. destruct F as (_ & F1 & F2 & _ & F4 & F5). cbn [fst snd]. intros f e qs J K.
      assert (In e (entities f s) \/ exists c p, In p ps /\ e = Entity c p 0 1) as [J'|(c & p & J' & ->)]. { destruct (Bool.bool_dec f g) as [-> | X]; [apply F4 in J as [J|(c & p & J1 & J)]; [auto|right; exists c, p; split; [|auto]; destruct (F1 _ J1) as (c0 & p0 & _ & X & Y); injection X as _ <-; exact Y]|rewrite F5 in J by auto; auto]. }
      * eauto. * cbn in K. destruct (M _ _ _ K) as (ipc & K'). apply (e_conn _ _ _ EI) in K'. destruct (F2 p J') as [? _]. lia.
    + cbn [fst snd]. intros f e qs J K. rewrite entities_with in J. destruct (Bool.eqb f g) eqn:X; [|eauto]. apply eqb_prop in X as ->. apply in_map_iff in J as (e0 & X & J). destruct (has_alias l e0); subst e; [|eauto]. cbn [set_life e_life]. specialize (G g e0 qs J K). lia.
    + exact G. + exact G.
  - intros a b s E T (EI & G). split; [now apply einv_coord|]. intros f e qs J. apply (G f e qs). destruct f; exact J.
Qed.
Lemma on_entity_life pid l e : NoDup (map e_pid l) -> In e (on_entity pid (set_life 3) l) -> e_pid e = pid -> (3 <= e_life e)%nat.
Proof. intros N J X. apply on_entity_in in J as [[J Y]|(e' & J & Y & ->)]; [contradiction| |auto]. cbn [set_life e_life]. lia. Qed.
Lemma configured_life f pid qs s e : (forall g, NoDup (map e_pid (entities g (fst (coordinate (MConfigured f pid) s))))) -> In e (entities f (fst (step (Configured f pid qs) s))) -> e_pid e = pid -> (3 <= e_life e)%nat.
Proof.
  intros N J X. destruct f; cbn [step] in J; rewrite bind_fst in J; set (s1 := fst (coordinate _ s)) in *.
  - cbn [fst] in J. rewrite entities_with in J. cbn [Bool.eqb] in J. exact (on_entity_life pid _ e (N true) J X).
  - cbn [check fst] in J. change (entities false _) with (s_groups (update_group pid qs s1)) in J. unfold update_group in J. change (s_groups (drop_pid pid s1)) with (s_groups s1) in J. destruct (find_entity pid (s_groups s1)) as [en|] eqn:Y.
    + destruct (fold_add_local en qs (with_entities false (on_entity pid (set_life 3) (s_groups s1)) (drop_pid pid s1))) as (_ & Z & _). rewrite Z in J. cbn [with_entities s_groups] in J. exact (on_entity_life pid _ e (N false) J X).
    + exfalso. exact (find_entity_none pid _ Y e J X).
Qed.
Lemma reach_met s h : reach s h -> met (inputs h).
Proof.
  induction 1 as [|s h i R IH Po]; [intros f pid qs []|]. rewrite inputs_snoc. intros f pid qs J. apply in_snoc in J as [J|J]; [destruct (IH f pid qs J) as (ipc & K); exists ipc; apply in_snoc; auto|]. subst i. destruct Po as (_ & ipc & K). exists ipc. apply in_snoc. auto.
Qed.
Lemma reach_ripe s h : reach s h -> ripe (inputs h) s (effects h) [].
Proof.
  induction 1 as [|s h i R IH Po]; [split; [exact (reach_einv _ _ reach_start)|intros [] e qs []]|]. pose proof (reach_step s h i R Po) as R1. pose proof (reach_einv _ _ R1) as EI1. pose proof (reach_idle _ _ R) as IO. pose proof (ripe_keeps _ (reach_met s h R)) as RK. rewrite effects_snoc, inputs_snoc in *.
  split; [exact EI1|]. destruct (asks i) eqn:A.
  - assert (N : forall f pid qs, ~ In (Configured f pid qs) [i]) by (intros f pid qs [J|[]]; subst i; discriminate).
    assert (H : ripe (inputs h) (fst (step i s)) (effects h ++ snd (step i s)) []).
    { destruct i; try discriminate; cbn [step].
      + unfold conform. destruct (then_all_keeps _ (tasks_of (Model [] []) m) [] s (effects h) RK IO IH) as [H _]. exact H.
      + rewrite bind_fst, bind_snd, app_assoc. unfold conform. destruct (then_all_keeps _ (tasks_of (current s) m) [TTell p k] s (effects h) RK IO IH) as [H1 I1]. destruct (andthen_keeps _ (TTell p k) [] _ _ RK I1 H1) as [H2 _]. exact H2.
      + rewrite bind_fst, bind_snd, app_assoc. unfold conform. set (s1 := fst (discard_all (with_run Down s))). set (ev1 := snd (discard_all (with_run Down s))). destruct IH as [EI G].
        assert (G1 : ripe (inputs h) s1 (effects h ++ ev1) []). { split; [|intros f e qs J; apply (G f e qs); destruct f; exact J]. apply (einv_same s); auto. intros e J f' c pid ->. apply shutdown_effects in J. discriminate. }
        destruct (then_all_keeps _ (tasks_of (current s1) (Model [] [])) [] s1 (effects h ++ ev1) RK IO G1) as [H _]. exact H. }
    destruct H as (_ & H). intros f e qs J K; apply in_app_iff in K as [K|K]; [eauto|exfalso; eapply N; eauto].
  - intros f e qs J K. apply in_snoc in K as [K|K].
    + destruct (frame i s A) as (s1 & ev1 & ev2 & C & _ & _ & _ & _ & F). destruct (F f e J) as (e' & J1 & _ & J3 & J4 & _). assert (G1 : ripe (inputs h) s1 (effects h ++ ev1) []). { destruct C as [[-> ->]|(msg & -> & ->)]; [now rewrite app_nil_r|]. exact (coordinate_keeps _ msg s (effects h) RK IH). }
      destruct G1 as [_ G1]. rewrite <- J3 in K. specialize (G1 f e' qs J1 K). lia.
    + subst i. apply (configured_life f (e_pid e) qs s e); auto. intro g. pose proof (coordinate_keeps _ (MConfigured f (e_pid e)) s (effects h) RK IH) as [EC _]. apply (e_nodup _ _ _ EC g).
Qed.
Definition started_b (h : history) : bool := existsb (fun e => match e with Ready => true | _ => false end) (effects h).
Lemma reach_run s h : reach s h -> s_run s = Configuring \/ In Ready (effects h) \/ down h.
Proof.
  induction 1 as [|s h i R IH Po]; [auto|]. rewrite effects_snoc. unfold down in *. rewrite inputs_snoc.
  assert (RK : forall r, keeps (fun s _ _ => s_run s = r)).
  { intro r. split; [|auto]. intros s1 E t T H. destruct t as [g l|g l|g l|p k]; cbn [start fst snd]; auto; [|destruct g; exact H]. revert s1 H. induction l as [|c l IHl]; intros s1 H; cbn [spawn]; [auto|]. match goal with |- context [spawn g l ?x] => specialize (IHl x); destruct (spawn g l x) as [[? ?] ?] end. cbn [fst] in *. apply IHl. destruct g; exact H. }
  destruct (is_down (fst (step i s))) eqn:D.
  - right. right. pose proof (reach_step s h i R Po) as R1. apply (v_down _ _ (reach_linv _ _ R1)) in D. unfold down in D. now rewrite inputs_snoc in D.
  - assert (X : s_run (fst (step i s)) = s_run s \/ In Ready (snd (step i s)) \/ i = Shutdown).
    { pose proof (reach_idle _ _ R) as IO. destruct i as [m|l|p k|pid ipc n add rem|ipc n|ipc|k|p k|p k int names|f pid ipc|f pid qs|pid|pid|ipc|p k m| | |ipc]; auto; cbn [step].
      - left. unfold conform. now destruct (then_all_keeps _ (tasks_of (Model [] []) m) [] s (effects h) (RK (s_run s)) IO eq_refl) as [H _].
      - left. destruct (lookup_cases l s) as [(E & _)|[(x & E & _)|(E & _)]]; rewrite E; reflexivity.
      - left. unfold discard_lookup. destruct (existsb _ _); reflexivity.
      - left. cbn [check fst]. change (s_run (with_lookups _ ?x)) with (s_run x). unfold advertise.
        assert (B : forall l t, s_run (fold_left (add_remote pid ipc n) l t) = s_run t) by (induction l as [|q l IHl]; intro t; cbn; auto; now rewrite IHl). assert (C : forall l t, s_run (fold_left (remove_remote ipc) l t) = s_run t) by (induction l as [|q l IHl]; intro t; cbn; auto; now rewrite IHl).
        rewrite C, B. destruct (existsb _ _); reflexivity.
      - left. cbn [check fst]. unfold order_of. destruct (existsb _ _); reflexivity.
      - left. rewrite bind_fst. destruct (find _ _) as [l|]; [destruct (l_wait l)|]; reflexivity.
      - left. rewrite bind_fst. unfold connect. destruct (find_entity _ _); cbn [fst]; [|exact (coordinate_keeps _ (MConnect f pid) s [] (RK (s_run s)) eq_refl)]. destruct f; exact (coordinate_keeps _ (MConnect _ pid) s [] (RK (s_run s)) eq_refl).
      - left. destruct f; rewrite bind_fst; [exact (coordinate_keeps _ (MConfigured true pid) s [] (RK (s_run s)) eq_refl)|]. cbn [check fst]. transitivity (s_run (fst (coordinate (MConfigured false pid) s))); [|exact (coordinate_keeps _ (MConfigured false pid) s [] (RK (s_run s)) eq_refl)]. set (s1 := fst (coordinate _ s)). change (s_run (with_lookups _ ?x)) with (s_run x). unfold update_group. destruct (find_entity _ _) as [en|]; [|reflexivity].
        assert (B : forall l t, s_run (fold_left (add_local en) l t) = s_run t) by (induction l as [|q l IHl]; intro t; cbn; auto; now rewrite IHl). rewrite B. reflexivity.
      - left. rewrite bind_fst. exact (coordinate_keeps _ (MDead pid) s [] (RK (s_run s)) eq_refl).
      - left. rewrite bind_fst. unfold conform. destruct (then_all_keeps _ (tasks_of (current s) m) [] s (effects h) (RK (s_run s)) IO eq_refl) as [H I1]. now destruct (andthen_keeps _ (TTell p k) [] _ [] (RK (s_run s)) I1 H) as [H2 _].
      - destruct (s_run s) eqn:E; auto. destruct (ready s); [right; left; now left|auto]. }
    destruct X as [X|[X|X]].
    + destruct IH as [IH|[IH|IH]]; [left; congruence|right; left; apply in_or_app; auto|right; right; apply in_or_app; auto].
    + right. left. apply in_or_app. auto.
    + right. right. apply in_or_app. right. left. auto.
Qed.
Lemma ready_then s h ev : reach s (h ++ [(Idle, ev)]) -> ~ down h -> (forall f c pid, live f c pid h -> exists qs, In (Configured f pid qs) (inputs h)) -> In Ready (effects (h ++ [(Idle, ev)])).
Proof.
  intros R D A. destruct (reach_inv s h Idle ev R) as (s0 & R0 & Po & -> & ->). rewrite effects_snoc. apply in_or_app. destruct (reach_run s0 h R0) as [X|[X|X]]; [right|auto|contradiction]. cbn [step]. rewrite X. destruct (reach_ripe s0 h R0) as [EI G].
  assert (L : forall f e, In e (entities f s0) -> (3 <=? e_life e)%nat = true). { intros f e J. apply Nat.leb_le. destruct (e_live _ _ _ EI f e J) as [L1 L2]. destruct (A f (e_conf e) (e_pid e)) as (qs & K); [split; auto|]. eapply G; eauto. }
  assert (Y : ready s0 = true); [|rewrite Y; now left]. unfold ready. apply andb_true_iff. split; apply forallb_forall; intros e J; [apply (L false e J)|apply (L true e J)].
Qed.

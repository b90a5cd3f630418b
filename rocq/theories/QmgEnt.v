(* The queue manager: the entities are the processes that have been spawned and not exited. *)
From Coq Require Import ZArith List Bool Lia.
From Verif Require Import QmgModel QmgSpec QmgProofs.
Import ListNotations.
Local Open Scope Z_scope.

Definition out (pid : Z) (I : list input) : Prop := In (Exit pid) I \/ In (Dead pid) I.
Record einv (s : state) (E : list effect) (I : list input) : Prop := {
  e_next : 1 <= s_next s;
  e_fresh : forall f c pid, In (Spawn f c pid) E -> 1 <= pid < s_next s;
  e_uniq : forall f c f' c' pid, In (Spawn f c pid) E -> In (Spawn f' c' pid) E -> f = f' /\ c = c';
  e_exit : forall pid, out pid I -> pid < s_next s;
  e_conn : forall f pid ipc, In (Connect f pid ipc) I -> pid < s_next s;
  e_live : forall f e, In e (entities f s) -> In (Spawn f (e_conf e) (e_pid e)) E /\ ~ out (e_pid e) I;
  e_there : forall f c pid, In (Spawn f c pid) E -> ~ out pid I -> exists e, In e (entities f s) /\ e_conf e = c /\ e_pid e = pid;
  e_nodup : forall f, NoDup (map e_pid (entities f s));
  e_addr : forall f e, In e (entities f s) -> (e_ipc e = 0 /\ forall p, ~ In (Connect f (e_pid e) p) I) \/ In (Connect f (e_pid e) (e_ipc e)) I }.

Definition core (e : entity) : conf * Z * Z := (e_conf e, e_pid e, e_ipc e).
Lemma core_in l l' e : map core l = map core l' -> In e l -> exists e', In e' l' /\ e_conf e' = e_conf e /\ e_pid e' = e_pid e /\ e_ipc e' = e_ipc e.
Proof. intros H I. apply (in_map core) in I. rewrite H in I. apply in_map_iff in I as (e' & C & I). exists e'. unfold core in C. injection C as A B C. auto. Qed.
Lemma core_pid l l' : map core l = map core l' -> map e_pid l = map e_pid l'.
Proof. intro H. apply (f_equal (map (fun x => snd (fst x)))) in H. rewrite !map_map in H. exact H. Qed.
Lemma einv_core s s' E E' I : s_next s' = s_next s -> (forall f, map core (entities f s') = map core (entities f s)) -> (forall f c pid, In (Spawn f c pid) E' <-> In (Spawn f c pid) E) -> einv s E I -> einv s' E' I.
Proof.
  intros N C S H. destruct H as [A B D X K L T Q P]. split; rewrite ?N; auto.
  - intros f c pid J. apply S in J. eauto.
  - intros f c f' c' pid J J'. apply S in J, J'. eauto.
  - intros f e J. destruct (core_in _ _ e (C f) J) as (e' & J' & -> & -> & _) || destruct (core_in _ _ e (C f) J) as (e' & J' & E1 & E2 & _). rewrite <- E1, <- E2. destruct (L f e' J') as [L1 L2]. split; [apply S|]; auto.
  - intros f c pid J O. apply S in J. destruct (T f c pid J O) as (e & J' & E1 & E2). destruct (core_in _ _ e (eq_sym (C f)) J') as (e' & J'' & F1 & F2 & _). exists e'. split; [auto|]. split; congruence.
  - intro f. rewrite (core_pid _ _ (C f)). auto.
  - intros f e J. destruct (core_in _ _ e (C f) J) as (e' & J' & E1 & E2 & E3). rewrite <- E3, <- E2. auto.
Qed.
Lemma einv_quiet s E E' I : (forall e, In e E' -> forall f c pid, e <> Spawn f c pid) -> einv s E I -> einv s (E ++ E') I.
Proof. intros H. apply einv_core; auto. intros f c pid. rewrite in_app_iff. split; [intros [J|J]; auto; exfalso; eapply H; eauto|auto]. Qed.
Lemma entities_with f f' l s : entities f (with_entities f' l s) = if Bool.eqb f f' then l else entities f s.
Proof. destruct f, f'; reflexivity. Qed.
Lemma next_with f l s : s_next (with_entities f l s) = s_next s.
Proof. destruct f; reflexivity. Qed.
Lemma einv_spawn f l I : forall s E, einv s E I -> einv (fst (fst (spawn f l s))) (E ++ snd (fst (spawn f l s))) I.
Proof.
  induction l as [|c l IH]; intros s E H; cbn; [now rewrite app_nil_r|].
  set (s1 := with_entities f (entities f s ++ [Entity c (s_next s) 0 1]) (with_next (s_next s + 1) s)).
  assert (H1 : einv s1 (E ++ [Spawn f c (s_next s)]) I).
  { assert (N : s_next s1 = s_next s + 1) by (unfold s1; now rewrite next_with).
    assert (EN : forall g, entities g s1 = if Bool.eqb g f then entities g s ++ [Entity c (s_next s) 0 1] else entities g s) by (intro g; unfold s1; rewrite entities_with; destruct g, f; reflexivity).
    destruct H as [A B D X K L T Q P]. split; rewrite ?N; try lia.
    - intros g d pid J. apply in_snoc in J as [J|J]; [specialize (B g d pid J); lia|]. injection J as _ _ ->. lia.
    - intros g d g' d' pid J J'. apply in_snoc in J as [J|J]; apply in_snoc in J' as [J'|J']; [eauto| | |].
      + injection J' as -> -> ->. specialize (B _ _ _ J). lia.
      + injection J as -> -> ->. specialize (B _ _ _ J'). lia.
      + injection J as -> -> ->. injection J' as -> ->. auto.
    - intros pid O. specialize (X pid O). lia.
    - intros g pid p O. specialize (K g pid p O). lia.
    - intros g e J. rewrite EN in J. assert (In e (entities g s) \/ (g = f /\ e = Entity c (s_next s) 0 1)) as [J'|[-> ->]].
      { destruct (Bool.eqb g f) eqn:G; [|auto]. apply eqb_prop in G. apply in_snoc in J as [J|J]; auto. }
      + destruct (L g e J') as [L1 L2]. split; [apply in_or_app; auto|auto].
      + cbn [e_conf e_pid]. split; [apply in_snoc; auto|]. intro O. specialize (X _ O). lia.
    - intros g d pid J O. apply in_snoc in J as [J|J].
      + destruct (T g d pid J O) as (e & J' & E1). exists e. split; [|auto]. rewrite EN. destruct (Bool.eqb g f); [apply in_or_app|]; auto.
      + injection J as -> -> ->. exists (Entity c (s_next s) 0 1). split; [|auto]. rewrite EN, eqb_reflx. apply in_snoc. auto.
    - intro g. rewrite EN. destruct (Bool.eqb g f); [|auto]. rewrite map_app. cbn. specialize (Q g).
      assert (F : ~ In (s_next s) (map e_pid (entities g s))). { intro J. apply in_map_iff in J as (e & E1 & J). destruct (L g e J) as [L1 _]. specialize (B _ _ _ L1). lia. }
      clear -Q F. induction (map e_pid (entities g s)) as [|x r IH]; cbn; [constructor; [auto|constructor]|]. inversion Q; subst. constructor; [rewrite in_snoc; cbn in F; intuition|apply IH; auto; cbn in F; intuition].
    - intros g e J. rewrite EN in J. assert (In e (entities g s) \/ (g = f /\ e = Entity c (s_next s) 0 1)) as [J'|[-> ->]].
      { destruct (Bool.eqb g f) eqn:G; [|auto]. apply eqb_prop in G. apply in_snoc in J as [J|J]; auto. }
      + auto.
      + left. cbn. split; [auto|]. intros p O. specialize (K _ _ _ O). lia. }
  specialize (IH s1 _ H1). fold s1. destruct (spawn f l s1) as [[s' ev] ps]. cbn in *. rewrite <- app_assoc in IH. exact IH.
Qed.
Lemma core_life n e : core (set_life n e) = core e.
Proof. reflexivity. Qed.
Lemma einv_start t s E I : einv s E I -> einv (fst (fst (start t s))) (E ++ snd (fst (start t s))) I.
Proof.
  intro H. destruct t as [f l|f l|f l|p k]; cbn [start fst snd].
  - now apply einv_spawn.
  - apply (einv_core s _ E); auto.
    + now rewrite next_with.
    + intro g. rewrite entities_with. destruct (Bool.eqb g f) eqn:G; [|auto]. apply eqb_prop in G as ->. rewrite map_map. apply map_ext. intro e. destruct (has_alias l e); [apply core_life|auto].
    + intros g c pid. rewrite in_app_iff. split; [|auto]. intros [J|J]; auto. apply in_map_iff in J as (x & X & _). discriminate.
  - apply einv_quiet; auto. intros e J g c pid ->. apply in_map_iff in J as (x & X & J). apply in_flat_map in J as (d & _ & J). unfold modify_one in J. destruct (find _ _); [|destruct J]. destruct J as [<-|[]]. discriminate.
  - apply einv_quiet; auto. intros e [<-|[]]. discriminate.
Qed.
Lemma einv_coord a t s E I : einv s E I -> einv (with_coord a t s) E I.
Proof. intro H. apply (einv_core s _ E); auto; tauto. Qed.
Lemma einv_advance ts m I : forall s E, einv s E I -> einv (fst (advance ts m s)) (E ++ snd (advance ts m s)) I.
Proof.
  induction ts as [|t ts IH]; intros s E H; cbn; [rewrite app_nil_r; now apply einv_coord|]. pose proof (einv_start t s E I H) as H1. destruct (start t s) as [[s1 ev] ps]. cbn in H1. destruct (handle t m ps).
  - specialize (IH s1 _ H1). destruct (advance ts m s1) as [s2 ev2]. cbn in *. now rewrite app_assoc.
  - cbn. now apply einv_coord.
Qed.
Lemma einv_coordinate m s E I : einv s E I -> einv (fst (coordinate m s)) (E ++ snd (coordinate m s)) I.
Proof.
  intro H. unfold coordinate. destruct (s_active s) as [[t ps]|]; [|cbn; now rewrite app_nil_r]. destruct (handle t m ps); [now apply einv_advance|]. cbn. rewrite app_nil_r. now apply einv_coord.
Qed.
Lemma einv_andthen t s E I : einv s E I -> einv (fst (andthen t s)) (E ++ snd (andthen t s)) I.
Proof.
  intro H. unfold andthen. destruct (s_active s); [cbn; rewrite app_nil_r; now apply einv_coord|]. pose proof (einv_start t s E I H) as H1. destruct (start t s) as [[s1 ev] ps]. cbn in *. now apply einv_coord.
Qed.
Lemma einv_then_all ts I : forall s E, einv s E I -> einv (fst (then_all ts s)) (E ++ snd (then_all ts s)) I.
Proof.
  induction ts as [|t ts IH]; intros s E H; cbn; [now rewrite app_nil_r|]. pose proof (einv_andthen t s E I H) as H1. destruct (andthen t s) as [s1 e1]. cbn in H1. specialize (IH s1 _ H1). destruct (then_all ts s1) as [s2 e2]. cbn in *. now rewrite app_assoc.
Qed.
Definition idle_input (i : input) : bool := match i with Exit _ | Dead _ | Connect _ _ _ => false | _ => true end.
Lemma einv_input s E I i : idle_input i = true -> einv s E I -> einv s E (I ++ [i]).
Proof.
  intros D [A B U X K L T Q P]. assert (O : forall pid, out pid (I ++ [i]) <-> out pid I). { intro pid. unfold out. rewrite !in_snoc. split; [|tauto]. intros [[J|J]|[J|J]]; auto; subst i; discriminate. }
  assert (C : forall f pid p, In (Connect f pid p) (I ++ [i]) <-> In (Connect f pid p) I). { intros. rewrite in_snoc. split; [|auto]. intros [J|J]; auto; subst i; discriminate. }
  split; auto.
  - intros pid J. apply X, O, J.
  - intros f pid p J. apply C in J. eauto.
  - intros f e J. destruct (L f e J) as [L1 L2]. split; auto. intro J'. apply L2, O, J'.
  - intros f c pid J N. apply (T f c pid J). intro J'. apply N, O, J'.
  - intros f e J. destruct (P f e J) as [[P1 P2]|P1]; [left|right]. + split; auto. intros p J'. apply C in J'. eapply P2; eauto. + now apply C.
Qed.
Lemma einv_remove pid s E I i : (i = Exit pid \/ i = Dead pid) -> pid < s_next s -> einv s E I -> einv (remove pid s) E (I ++ [i]).
Proof.
  intros W N [A B U X K L T Q P].
  assert (EN : forall f, entities f (remove pid s) = erase_entity pid (entities f s)) by (intros []; reflexivity).
  assert (O : forall p, out p (I ++ [i]) <-> out p I \/ p = pid). { intro p. unfold out. rewrite !in_snoc. split. - intros [[J|J]|[J|J]]; auto; destruct W as [-> | ->]; try discriminate; injection J; auto. - intros [[J|J]|J]; auto. subst p. destruct W as [-> | ->]; auto. }
  assert (C : forall f p q, In (Connect f p q) (I ++ [i]) <-> In (Connect f p q) I). { intros. rewrite in_snoc. split; [|auto]. intros [J|J]; auto. destruct W as [-> | ->]; discriminate. }
  split; cbn [s_next remove drop_pid with_queues]; auto.
  - intros p J. apply O in J as [J | ->]; auto.
  - intros f p q J. apply C in J. eauto.
  - intros f e J. rewrite EN in J. apply filter_In in J as [J E1]. apply negb_true_iff, Z.eqb_neq in E1. destruct (L f e J) as [L1 L2]. split; auto. intro J'. apply O in J' as [J'|J']; auto.
  - intros f c p J NO. destruct (T f c p J) as (e & J' & E1 & E2); [intro; apply NO, O; auto|]. exists e. split; [|auto]. rewrite EN. apply filter_In. split; auto. apply negb_true_iff, Z.eqb_neq. intro. apply NO, O. right. congruence.
  - intro f. rewrite EN. specialize (Q f). clear -Q. induction (entities f s) as [|e r IH]; cbn in *; [constructor|]. inversion Q; subst. destruct (negb _); [|auto]. cbn. constructor; auto. intro J. apply H1. apply in_map_iff in J as (x & <- & J). apply filter_In in J as [J _]. now apply in_map.
  - intros f e J. rewrite EN in J. apply filter_In in J as [J _]. destruct (P f e J) as [[P1 P2]|P1]; [left|right]. + split; auto. intros p J'. apply C in J'. eapply P2; eauto. + now apply C.
Qed.
Lemma find_entity_in pid l e : find_entity pid l = Some e -> In e l /\ e_pid e = pid.
Proof. unfold find_entity. intro H. apply find_some in H as [H1 H2]. now apply Z.eqb_eq in H2. Qed.
Lemma find_entity_none pid l : find_entity pid l = None -> forall e, In e l -> e_pid e <> pid.
Proof. unfold find_entity. intros H e J. apply (find_none _ _ H) in J. now apply Z.eqb_neq in J. Qed.
Lemma on_entity_in pid g l e : NoDup (map e_pid l) -> In e (on_entity pid g l) -> (In e l /\ e_pid e <> pid) \/ exists e', In e' l /\ e_pid e' = pid /\ e = g e'.
Proof.
  induction l as [|x r IH]; cbn; [tauto|]. intros N J. inversion N as [|? ? NI NR]; subst. destruct (e_pid x =? pid) eqn:P.
  - apply Z.eqb_eq in P. destruct J as [<-|J]; [right; exists x; auto|]. left. split; [auto|]. intro Q. apply NI. rewrite P, <- Q. now apply in_map.
  - apply Z.eqb_neq in P. destruct J as [<-|J]; [auto|]. destruct (IH NR J) as [[A B]|(e' & A & B)]; [auto|]. right. exists e'. auto.
Qed.
Lemma in_on_entity pid g l e : In e l -> e_pid e <> pid -> In e (on_entity pid g l).
Proof. induction l as [|x r IH]; cbn; auto. intros [->|J] N. - apply Z.eqb_neq in N. rewrite N. now left. - destruct (_ =? _); [right; auto|right; auto]. Qed.
Lemma in_on_entity_hit pid g l e : NoDup (map e_pid l) -> In e l -> e_pid e = pid -> In (g e) (on_entity pid g l).
Proof.
  induction l as [|x r IH]; cbn; auto. intros N J P. inversion N as [|? ? NI NR]; subst. destruct J as [->|J].
  - rewrite Z.eqb_refl. now left.
  - destruct (e_pid x =? e_pid e) eqn:Q; [|right; auto]. apply Z.eqb_eq in Q. exfalso. apply NI. rewrite Q. now apply in_map.
Qed.
Lemma on_entity_pids pid g l : (forall e, e_pid (g e) = e_pid e) -> map e_pid (on_entity pid g l) = map e_pid l.
Proof. intro H. induction l as [|x r IH]; cbn; auto. destruct (_ =? _); cbn; [now rewrite H|now rewrite IH]. Qed.
Lemma on_entity_core pid g l : (forall e, core (g e) = core e) -> map core (on_entity pid g l) = map core l.
Proof. intro H. induction l as [|x r IH]; cbn; auto. destruct (_ =? _); cbn; [now rewrite H|now rewrite IH]. Qed.
Lemma einv_connect f pid ipc s E I : (forall g p, ~ In (Connect g pid p) I) -> pid < s_next s -> einv s E I -> einv (fst (connect f pid ipc s)) (E ++ snd (connect f pid ipc s)) (I ++ [Connect f pid ipc]).
Proof.
  intros NC N H. assert (H' := H). destruct H' as [A B U X K L T Q P].
  assert (O : forall p, out p (I ++ [Connect f pid ipc]) <-> out p I). { intro p. unfold out. rewrite !in_snoc. split; [|tauto]. intros [[J|J]|[J|J]]; auto; discriminate. }
  assert (G : einv (fst (connect f pid ipc s)) E (I ++ [Connect f pid ipc])).
  { unfold connect. destruct (find_entity pid (entities f s)) as [e0|] eqn:F; cbn [fst].
    - apply find_entity_in in F as [F0 F1]. set (g := fun e => set_ipc ipc (set_life 2 e)).
      assert (EN : forall k, entities k (with_entities f (on_entity pid g (entities f s)) s) = if Bool.eqb k f then on_entity pid g (entities f s) else entities k s) by (intro; apply entities_with).
      assert (IN : forall k e, In e (entities k (with_entities f (on_entity pid g (entities f s)) s)) -> (In e (entities k s) /\ (k = f -> e_pid e <> pid)) \/ (k = f /\ exists e', In e' (entities f s) /\ e_pid e' = pid /\ e = g e')).
      { intros k e J. rewrite EN in J. destruct (Bool.eqb k f) eqn:KF. - apply eqb_prop in KF as ->. destruct (on_entity_in _ _ _ _ (Q f) J) as [[J1 J2]|J1]; auto. - left. split; auto. intros ->. now rewrite eqb_reflx in KF. }
      split; rewrite ?next_with; auto.
      + intros p J. apply X, O, J.
      + intros k p q J. apply in_snoc in J as [J|J]; [eauto|]. injection J as -> -> ->. auto.
      + intros k e J. destruct (IN k e J) as [[J1 _]|[-> (e' & J1 & J2 & ->)]]; [destruct (L k e J1) as [L1 L2]|destruct (L f e' J1) as [L1 L2]]; (split; [exact L1|intro J'; apply L2, O, J']).
      + intros k c p J NO. destruct (T k c p J) as (e & J' & E1 & E2); [intro; apply NO, O; auto|]. rewrite EN. destruct (Bool.eqb k f) eqn:KF; [|eauto]. apply eqb_prop in KF as ->.
        destruct (Z.eq_dec (e_pid e) pid) as [W|W]. * exists (g e). split; [now apply in_on_entity_hit|auto]. * exists e. split; [now apply in_on_entity|auto].
      + intro k. rewrite EN. destruct (Bool.eqb k f); [|auto]. rewrite on_entity_pids; [apply Q|reflexivity].
      + intros k e J. destruct (IN k e J) as [[J1 J2]|[-> (e' & J1 & J2 & ->)]].
        * destruct (P k e J1) as [[P1 P2]|P1]; [left|right; apply in_snoc; auto]. split; auto. intros q J'. apply in_snoc in J' as [J'|J']; [eapply P2; eauto|]. injection J' as -> W _. now apply J2.
        * right. apply in_snoc. right. cbn. now rewrite J2.
    - split; auto.
      + intros p J. apply X, O, J.
      + intros k p q J. apply in_snoc in J as [J|J]; [eauto|]. injection J as -> -> ->. auto.
      + intros k e J. destruct (L k e J) as [L1 L2]. split; [auto|intro J'; apply L2, O, J'].
      + intros k c p J NO. apply (T k c p J). intro; apply NO, O; auto.
      + intros k e J. destruct (P k e J) as [[P1 P2]|P1]; [left|right; apply in_snoc; auto]. split; auto. intros q J'. apply in_snoc in J' as [J'|J']; [eapply P2; eauto|]. injection J' as -> W _. exact (find_entity_none _ _ F e J W). }
  apply einv_quiet; auto. intros e J g c p ->. unfold connect in J. destruct (find_entity _ _); [|destruct J]. destruct J as [J|[]]. discriminate.
Qed.
(* what doesn't touch the entities *)
Lemma einv_same s s' E ev I : s_next s' = s_next s -> s_groups s' = s_groups s -> s_forwards s' = s_forwards s -> (forall e, In e ev -> forall f c pid, e <> Spawn f c pid) -> einv s E I -> einv s' (E ++ ev) I.
Proof. intros A B C D H. apply einv_quiet; auto. apply (einv_core s _ E); auto; [intros []; cbn; congruence|tauto]. Qed.
Lemma check_same s : s_next (fst (check s)) = s_next s /\ s_groups (fst (check s)) = s_groups s /\ s_forwards (fst (check s)) = s_forwards s /\ forall e, In e (snd (check s)) -> forall f c pid, e <> Spawn f c pid.
Proof. unfold check. cbn. repeat (split; [reflexivity|]). intros e J f c pid ->. apply in_flat_map in J as (l & _ & J). destruct (replied s l); [|destruct J]. destruct J as [J|[]]. discriminate. Qed.
Lemma absent_no s l e : In e (absent s l) -> forall f c pid, e <> Spawn f c pid.
Proof. unfold absent, send. destruct (gone _ _); cbn; [tauto|]. intros [<-|[]]. discriminate. Qed.
Lemma send_no p x s e : (forall f c pid, x <> Spawn f c pid) -> In e (send p x s) -> forall f c pid, e <> Spawn f c pid.
Proof. unfold send. destruct (gone _ _); cbn; [tauto|]. intros H [<-|[]]. auto. Qed.
Lemma advertise_same pid ipc n add rem s : s_next (advertise pid ipc n add rem s) = s_next s /\ s_groups (advertise pid ipc n add rem s) = s_groups s /\ s_forwards (advertise pid ipc n add rem s) = s_forwards s.
Proof.
  unfold advertise. set (s1 := if existsb _ _ then s else _). assert (A : s_next s1 = s_next s /\ s_groups s1 = s_groups s /\ s_forwards s1 = s_forwards s) by (unfold s1; destruct (existsb _ _); auto). clearbody s1.
  assert (B : forall l t, s_next (fold_left (add_remote pid ipc n) l t) = s_next t /\ s_groups (fold_left (add_remote pid ipc n) l t) = s_groups t /\ s_forwards (fold_left (add_remote pid ipc n) l t) = s_forwards t) by (induction l as [|q l IH]; intro t; cbn; [auto|]; destruct (IH (add_remote pid ipc n t q)) as (-> & -> & ->); auto).
  assert (C : forall l t, s_next (fold_left (remove_remote ipc) l t) = s_next t /\ s_groups (fold_left (remove_remote ipc) l t) = s_groups t /\ s_forwards (fold_left (remove_remote ipc) l t) = s_forwards t) by (induction l as [|q l IH]; intro t; cbn; [auto|]; destruct (IH (remove_remote ipc t q)) as (-> & -> & ->); auto).
  destruct (C rem (fold_left (add_remote pid ipc n) add s1)) as (-> & -> & ->). destruct (B add s1) as (-> & -> & ->). exact A.
Qed.
Lemma fold_add_local e qs : forall s, s_next (fold_left (add_local e) qs s) = s_next s /\ s_groups (fold_left (add_local e) qs s) = s_groups s /\ s_forwards (fold_left (add_local e) qs s) = s_forwards s.
Proof. induction qs as [|q l IH]; intro t; cbn; [auto|]. destruct (IH (add_local e t q)) as (-> & -> & ->). auto. Qed.
Lemma update_group_same pid qs s : s_next (update_group pid qs s) = s_next s /\ s_forwards (update_group pid qs s) = s_forwards s /\ map core (s_groups (update_group pid qs s)) = map core (s_groups s).
Proof.
  unfold update_group. cbn [drop_pid with_queues s_groups]. destruct (find_entity pid (s_groups s)) as [e|]; [|auto].
  destruct (fold_add_local e qs (with_entities false (on_entity pid (set_life 3) (s_groups s)) (drop_pid pid s))) as (-> & -> & ->). split; [reflexivity|]. split; [reflexivity|]. cbn. apply on_entity_core. auto.
Qed.
Lemma bind_fst a g : fst (bind a g) = fst (g (fst a)).
Proof. unfold bind. destruct a as [s1 e1]. cbn. destruct (g s1). reflexivity. Qed.
Lemma bind_snd a g : snd (bind a g) = snd a ++ snd (g (fst a)).
Proof. unfold bind. destruct a as [s1 e1]. cbn. destruct (g s1). reflexivity. Qed.

Lemma reach_einv s h : reach s h -> einv s (effects h) (inputs h).
Proof.
  induction 1 as [|s h i R IH Po].
  - cbn. split; cbn; try lia; try tauto; try (intros; contradiction).
    + intros pid [[]|[]]. + intros []; cbn; tauto. + intros []; cbn; constructor. + intros []; cbn; tauto.
  - rewrite effects_snoc, inputs_snoc.
    destruct i as [m|l|p k|pid ipc n add rem|ipc n|ipc|k|p k|p k int names|f pid ipc|f pid qs|pid|pid|ipc|p k m| | |ipc]; cbn [step].
    + apply einv_input; auto. now apply einv_then_all.
    + apply einv_input; auto. apply (einv_same s); auto; unfold lookup, absent_queue.
      * destruct (is_down s); [auto|]. destruct (l_req l); destruct (queue _ _ _) || destruct (local_queue _ _ _); auto; destruct (l_wait l); auto.
      * destruct (is_down s); [auto|]. destruct (l_req l); destruct (queue _ _ _) || destruct (local_queue _ _ _); auto; destruct (l_wait l); auto.
      * destruct (is_down s); [auto|]. destruct (l_req l); destruct (queue _ _ _) || destruct (local_queue _ _ _); auto; destruct (l_wait l); auto.
      * intros e J. destruct (is_down s); [eapply absent_no; eauto|]. destruct (l_req l); destruct (queue _ _ _) || destruct (local_queue _ _ _); cbn in J; try (eapply send_no; [|exact J]; discriminate); try (destruct (l_wait l)); cbn in J; try (now destruct J); try (eapply absent_no; exact J). all: destruct J as [<-|[]]; discriminate.
    + apply einv_input; auto. unfold discard_lookup. destruct (existsb _ _); apply (einv_same s); auto; intros e J; (eapply send_no; [|exact J]; discriminate).
    + apply einv_input; auto. destruct (check_same (advertise pid ipc n add rem s)) as (A & B & C & D). destruct (advertise_same pid ipc n add rem s) as (A' & B' & C'). apply (einv_same s); congruence || auto.
    + apply einv_input; auto. destruct (check_same (order_of ipc n s)) as (A & B & C & D). assert (s_next (order_of ipc n s) = s_next s /\ s_groups (order_of ipc n s) = s_groups s /\ s_forwards (order_of ipc n s) = s_forwards s) as (A' & B' & C') by (unfold order_of; destruct (existsb _ _); auto). apply (einv_same s); congruence || auto.
    + apply einv_input; auto. destruct (check_same (drop_ipc ipc s)) as (A & B & C & D). apply (einv_same s); auto.
    + apply einv_input; auto. rewrite bind_fst, bind_snd. destruct (check_same s) as (A & B & C & D). destruct (find _ _) as [l|]; [destruct (l_wait l)|]; cbn [fst snd].
      * apply (einv_same s); auto. intros e J. rewrite app_nil_r in J. auto.
      * apply (einv_same s); auto. intros e J. apply in_app_iff in J as [J|J]; auto. eapply absent_no; eauto.
      * apply (einv_same s); auto. intros e J. rewrite app_nil_r in J. auto.
    + apply einv_input; auto. apply (einv_same s); auto. intros e J. eapply send_no; [|exact J]; discriminate.
    + apply einv_input; auto. apply (einv_same s); auto. intros e J. eapply send_no; [|exact J]; discriminate.
    + cbn in Po. destruct Po as (_ & (c & Sp) & NC & _). rewrite bind_fst, bind_snd, app_assoc. pose proof (einv_coordinate (MConnect f pid) s _ _ IH) as IH1. apply einv_connect; auto. destruct (e_fresh _ _ _ IH1 f c pid); [apply in_or_app; auto|auto].
    + destruct f; rewrite bind_fst, bind_snd; apply einv_input; auto.
      * pose proof (einv_coordinate (MConfigured true pid) s _ _ IH) as IH1. cbn [fst snd]. rewrite app_nil_r. eapply einv_core; [| | |exact IH1]; [reflexivity| |tauto].
        intros []; cbn; auto. now apply on_entity_core.
      * pose proof (einv_coordinate (MConfigured false pid) s _ _ IH) as IH1. rewrite app_assoc. set (s1 := fst (coordinate _ s)) in *. destruct (check_same (update_group pid qs s1)) as (A & B & C & D). destruct (update_group_same pid qs s1) as (A' & B' & C').
        apply einv_quiet; auto. apply (einv_core s1 _ (effects h ++ snd (coordinate (MConfigured false pid) s))); [congruence| |tauto|exact IH1]. intros []; cbn; congruence.
    + cbn in Po. destruct Po as (_ & f & c & Sp). apply einv_quiet; [intros e [<-|[]]; discriminate|]. apply einv_remove; auto. destruct (e_fresh _ _ _ IH f c pid Sp). auto.
    + rewrite bind_fst, bind_snd. cbn [fst snd]. rewrite app_nil_r. pose proof (einv_coordinate (MDead pid) s _ _ IH) as IH1. apply einv_remove; auto. cbn in Po. destruct Po as (_ & [Po|Po]); [pose proof (e_next _ _ _ IH1); lia|]. apply (e_exit _ _ _ IH1). now left.
    + apply einv_input; auto. apply (einv_same s); auto.
    + apply einv_input; auto. rewrite bind_fst, bind_snd, app_assoc. apply einv_andthen. now apply einv_then_all.
    + apply einv_input; auto. rewrite bind_fst, bind_snd, app_assoc. apply einv_then_all. apply (einv_same s); auto. intros e J. cbn in J. apply in_flat_map in J as (l & _ & J). eapply absent_no; eauto.
    + apply einv_input; auto. destruct (s_run s); try (cbn; rewrite app_nil_r; auto). destruct (ready s); cbn; [|rewrite app_nil_r; auto]. apply (einv_same s); auto. intros e [<-|[]]. discriminate.
    + apply einv_input; auto. apply (einv_same s); auto.
Qed.

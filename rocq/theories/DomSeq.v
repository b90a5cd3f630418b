(* The domain manager: the sequence of its tasks, in histories. *)
From Coq Require Import ZArith List Bool Lia Permutation.
From Verif Require Import DomModel DomSpec DomBoot DomFrame DomMarks DomStep.
Import ListNotations.
Local Open Scope Z_scope.

Lemma effects_app a b : effects (a ++ b) = effects a ++ effects b.
Proof. apply flat_map_app. Qed.
Lemma effects_one i ev : effects [(i, ev)] = ev.
Proof. unfold effects. cbn. apply app_nil_r. Qed.
Lemma inputs_app a b : inputs (a ++ b) = inputs a ++ inputs b.
Proof. apply map_app. Qed.

(* what's asked of the administration is appended *)
Definition orders (more : list effect) : Prop := exists l, more = flat_map (fun b => [Begun b; Ended b; Done WScale]) l.
Lemma orders_nil : orders []. Proof. exists []. auto. Qed.
Lemma orders_app a b : orders a -> orders b -> orders (a ++ b).
Proof. intros (l & ->) (k & ->). exists (l ++ k). now rewrite flat_map_app. Qed.

(* when it's told to shut down, in fact *)
Definition ends_it (i : input) (d : dom) : bool := match i with Terminate => true | Fatal => match d_level d with Startup => true | _ => false end | _ => false end.
Definition level_after (i : input) (d : dom) (ev : list effect) : level :=
  match i, d_level d with
  | Terminate, Error => Error | Terminate, _ => Down
  | Fatal, Startup => Error
  | _, _ => if existsb is_booted ev then raise (d_level d) else d_level d
  end.
Record all_facts (i : input) (d d' : dom) (ev : list effect) : Prop := Facts {
  f_rest : rest0 d'; f_groups : d_groups d' = d_groups d; f_mgr : d_mgr d' = d_mgr d; f_conf : map conf (d_ents d') = map conf (d_ents d);
  f_ended : forall b, In (Ended b) ev -> group_done b d' = true;
  f_spawn : (forall p, i = Exit p -> d_level d <> Running) -> sp_ok ev;
  f_level : d_level d' = level_after i d ev;
  f_plan : if ends_it i d then marks ev ++ plan (d_tasks d') = plan (firstn 1 (d_tasks d)) ++ in_turn (shutdown_order (d_groups d) (d_mgr d) (d_ents d)) ++ [Done WShutdown]
           else exists more, orders more /\ marks ev ++ plan (d_tasks d') = plan (d_tasks d) ++ more /\ ((forall l, i <> ScaleTo l) -> more = []) }.
Lemma shutdown_facts d d0 : rest0 d -> d0 = d \/ d0 = set_level Error d -> 
  let d' := shutdown d0 in rest0 (set_out [] d') /\ d_groups d' = d_groups d /\ d_mgr d' = d_mgr d /\ map conf (d_ents d') = map conf (d_ents d) /\ (forall b, In (Ended b) (d_out d') -> group_done b d' = true) /\ sp_ok (d_out d') /\
  d_level d' = match d_level d0 with Error => Error | _ => Down end /\ marks (d_out d') ++ plan (d_tasks d') = plan (firstn 1 (d_tasks d)) ++ in_turn (shutdown_order (d_groups d) (d_mgr d) (d_ents d)) ++ [Done WShutdown].
Proof.
  intros (U & F & O) H d'. assert (U0 : uniq d0) by (destruct H as [-> | ->]; auto). assert (F0 : front_ok (d_tasks d0)) by (destruct H as [-> | ->]; auto).
  destruct (shutdown_moved d0 U0 F0) as (y & M & G & E). fold d' in M, G, E. pose proof (m_conf _ _ _ M) as C. rewrite (down_conf d0) in C.
  assert (X : d_groups d0 = d_groups d /\ d_mgr d0 = d_mgr d /\ d_ents d0 = d_ents d /\ d_tasks d0 = d_tasks d /\ d_out d0 = []) by (destruct H as [-> | ->]; auto). destruct X as (X1 & X2 & X3 & X4 & X5).
  assert (Y : d_out d' = y) by (rewrite (m_out _ _ _ M); cbn; now rewrite X5). split; [split; [unfold uniq; cbn; rewrite (conf_ids _ _ C); exact U0|split; [exact G|reflexivity]]|].
  split; [rewrite (m_groups _ _ _ M); exact X1|]. split; [rewrite (m_mgr _ _ _ M); exact X2|]. split; [now rewrite C, X3|]. split; [intros b J; rewrite Y in J; now apply (m_ended _ _ _ M)|]. split; [rewrite Y; apply M|].
  split; [now apply shutdown_level|]. rewrite Y, <- X1, <- X2, <- X3, <- X4. exact E.
Qed.
Lemma step_all o i d d' ev : rest0 d -> (forall p gs m es, i <> Begin p gs m es) -> step o i d = Some (d', ev) -> all_facts i d d' ev.
Proof.
  intros R NB H. assert (PL : plain i \/ i = Terminate \/ i = Fatal \/ exists l, i = ScaleTo l) by (destruct i; cbn; eauto 6; exfalso; eapply NB; reflexivity).
  destruct PL as [Pl|[->|[->|[l ->]]]].
  - destruct (step_plain o i d d' ev R Pl H) as ((A & L & Q) & R'). destruct A. constructor; auto.
    + unfold level_after. rewrite L. destruct i; try contradiction; auto.
    + assert (E : ends_it i d = false) by (destruct i; try contradiction; auto). rewrite E. exists []. split; [apply orders_nil|]. auto.
  - unfold step in H. cbn [handle option_map] in H. injection H as <- <-. destruct R as (U & F & O).
    destruct (shutdown_facts (set_out [] (set_orc o d)) (set_out [] (set_orc o d))) as (A1 & A2 & A3 & A4 & A5 & A6 & A7 & A8); [split; [exact U|split; [exact F|reflexivity]]|auto|].
    constructor; auto.
  - unfold step in H. cbn [handle option_map] in H. destruct R as (U & F & O). set (d0 := set_out [] (set_orc o d)) in *. change (d_level d0) with (d_level d) in H.
    assert (R0 : rest0 d0) by (split; [exact U|split; [exact F|reflexivity]]).
    destruct (d_level d) eqn:L; injection H as <- <-.
    + assert (L0 : d_level d0 = Startup) by exact L. destruct (shutdown_facts d0 (set_level Error d0)) as (A1 & A2 & A3 & A4 & A5 & A6 & A7 & A8); auto.
      constructor; auto.
      * cbn [set_out d_level]. rewrite A7. unfold set_level. cbn [d_level]. rewrite L0. unfold level_after. rewrite L. reflexivity.
      * unfold ends_it. rewrite L. exact A8.
    + constructor; [exact R0|reflexivity|reflexivity|reflexivity|intros b []|intros _; apply sp_nil|unfold level_after; cbn; now rewrite L|unfold ends_it; rewrite L; exists []; split; [apply orders_nil|]; cbn; rewrite app_nil_r; auto].
    + constructor; [exact R0|reflexivity|reflexivity|reflexivity|intros b []|intros _; apply sp_nil|unfold level_after; cbn; now rewrite L|unfold ends_it; rewrite L; exists []; split; [apply orders_nil|]; cbn; rewrite app_nil_r; auto].
    + constructor; [exact R0|reflexivity|reflexivity|reflexivity|intros b []|intros _; apply sp_nil|unfold level_after; cbn; now rewrite L|unfold ends_it; rewrite L; exists []; split; [apply orders_nil|]; cbn; rewrite app_nil_r; auto].
  - unfold step in H. cbn [handle] in H. set (d0 := set_out [] (set_orc o d)) in *. destruct R as (U & F & O).
    unfold scale_aliases in H. destruct (scale_all l (scalables d0 (map fst l)) d0) as [d1|] eqn:E; [|discriminate]. cbn [option_map] in H. injection H as <- <-.
    apply scale_all_pre in E; [|exact U|intros e J; exists e; split; [now apply scalables_in in J|auto]].
    assert (U1 : uniq d1) by now apply (pre_uniq d0 _ []). assert (F1 : front_ok (d_tasks d1)) by (rewrite (p_tasks _ _ _ E); exact F).
    set (ids := map e_id (scalables d0 (map fst l))). destruct (andthen_moved d1 (TScale ids) U1 F1) as (x & M & P & G). set (d2 := andthen d1 (TScale ids)) in *.
    destruct (andthen_moved d2 (TDone WScale) (moved_uniq _ _ _ M U1) G) as (y & N & Q & G2). set (d3 := andthen d2 (TDone WScale)) in *.
    pose proof (moved_trans _ _ _ _ _ M N) as MN. assert (X : d_out d3 = x ++ y) by (rewrite (m_out _ _ _ MN), (p_out _ _ _ E); reflexivity). rewrite X. constructor.
    + split; [|split; [exact G2|reflexivity]]. apply (moved_uniq _ _ _ MN U1).
    + cbn. rewrite (m_groups _ _ _ MN), (p_groups _ _ _ E). reflexivity.
    + cbn. rewrite (m_mgr _ _ _ MN), (p_mgr _ _ _ E). reflexivity.
    + cbn. rewrite (m_conf _ _ _ MN), (p_conf _ _ _ E). reflexivity.
    + intros b J. apply (m_ended _ _ _ MN b J).
    + intros _. apply MN.
    + cbn. rewrite (m_level _ _ _ MN), (p_level _ _ _ E). unfold level_after. reflexivity.
    + cbn [ends_it]. exists [Begun ids; Ended ids; Done WScale]. split; [exists [ids]; reflexivity|]. split; [|intro K; exfalso; now apply (K l)].
      cbn [set_out d_tasks]. rewrite marks_app, <- app_assoc, Q, app_assoc, P, (p_tasks _ _ _ E). cbn [todo flat_map app]. rewrite <- app_assoc. reflexivity.
Qed.
Lemma begin_facts o p gs m es d' ev : NoDup (map e_id es) -> step o (Begin p gs m es) dom0 = Some (d', ev) ->
  rest0 d' /\ d_groups d' = gs /\ d_mgr d' = m /\ map conf (d_ents d') = map conf es /\ (forall b, In (Ended b) ev -> group_done b d' = true) /\ sp_ok ev /\
  d_level d' = (if existsb is_booted ev then Running else Startup) /\ marks ev ++ plan (d_tasks d') = in_turn (boot_order gs m es) ++ [Booted].
Proof.
  intros N H. unfold step in H. cbn [handle option_map] in H. injection H as <- <-. unfold boot. cbn [set_out set_orc d_orc]. set (d0 := Dom Startup gs m es [] [] [] [p] [] [] o []).
  cbn [d_groups d_mgr d_ents d0]. fold d0. destruct (fold_andthen (map TScale (boot_order gs m es)) d0 N Logic.I) as (x & M & P & G). set (d2 := fold_left _ _ _) in *.
  destruct (andthen_moved d2 TBoot (moved_uniq _ _ _ M N) G) as (y & M2 & Q & G2). set (d3 := andthen d2 TBoot) in *. pose proof (moved_trans _ _ _ _ _ M M2) as MM.
  assert (X : d_out d3 = x ++ y) by (rewrite (m_out _ _ _ MM); reflexivity). rewrite X.
  split; [split; [apply (moved_uniq _ _ _ MM N)|split; [exact G2|reflexivity]]|]. split; [exact (m_groups _ _ _ MM)|]. split; [exact (m_mgr _ _ _ MM)|]. split; [exact (m_conf _ _ _ MM)|].
  split; [exact (m_ended _ _ _ MM)|]. split; [apply MM|]. split; [exact (m_level _ _ _ MM)|]. cbn [set_out d_tasks]. rewrite marks_app, <- app_assoc, Q, app_assoc, P, todo_scale. cbn. reflexivity.
Qed.

(* ---- histories ---- *)
Lemma begun_app p gs m es h x : begun p gs m es h -> begun p gs m es (h ++ x).
Proof. intros (ev & r & ->). exists ev, (r ++ x). auto. Qed.
Lemma begun_fun p gs m es p' gs' m' es' h : begun p gs m es h -> begun p' gs' m' es' h -> p = p' /\ gs = gs' /\ m = m' /\ es = es'.
Proof. intros (ev & r & ->) (ev' & r' & E). injection E as -> -> -> ->. auto. Qed.
Lemma begun_inv p gs m es h i ev : begun p gs m es (h ++ [(i, ev)]) -> h <> [] -> begun p gs m es h.
Proof. intros (e & r & E) N. destruct h as [|x h]; [contradiction|]. cbn in E. injection E as -> E. exists e, h. auto. Qed.
Lemma reach_begun d h : reach d h -> h = [] /\ d = dom0 \/ exists p gs m es, begun p gs m es h /\ configured p gs m es.
Proof.
  intro R. induction R as [|d h o i d' ev R IH (P & Pf) S]; [auto|]. right. destruct i; try (destruct IH as [[-> _]|(p0 & gs0 & m0 & es0 & B & C)]; [tauto|]; exists p0, gs0, m0, es0; split; [now apply begun_app|auto]).
  destruct P as (-> & C). exists pid, gs, mgr, es. split; [exists ev, []; auto|auto].
Qed.
Lemma not_begin h o i : possible h o i -> h <> [] -> forall p gs m es, i <> Begin p gs m es.
Proof. intros [P _] N p gs m es ->. destruct P as (-> & _). contradiction. Qed.
(* what's true all the time *)
Record kept (d : dom) (h : history) : Prop := Kept {
  k_rest : rest0 d;
  k_conf : forall p gs m es, begun p gs m es h -> d_groups d = gs /\ d_mgr d = m /\ map conf (d_ents d) = map conf es;
  k_level : match d_level d with Startup => ~ In Booted (effects h) /\ ~ down h | Running => In Booted (effects h) /\ ~ down h | Down | Error => down h end }.
Lemma down_app h x : down h -> down (h ++ x).
Proof. intros [T|(a & ev & b & -> & N)]; [left; rewrite inputs_app; apply in_or_app; auto|]. right. exists a, ev, (b ++ x). rewrite <- app_assoc. auto. Qed.
Lemma app_one {A} (h a b : list A) x y : h ++ [x] = a ++ y :: b -> (b = [] /\ h = a /\ x = y) \/ exists b', b = b' ++ [x] /\ h = a ++ y :: b'.
Proof.
  intro E. destruct (app_split _ _ _ _ _ E) as [(c' & -> & ->)|(a' & -> & K)].
  - right. exists c'. auto.
  - left. destruct a' as [|z a']; cbn in K; [injection K as -> <-; rewrite app_nil_r; auto|]. destruct a'; discriminate.
Qed.
Lemma not_down_app h i ev : ~ down h -> i <> Terminate -> (i = Fatal -> In Booted (effects h)) -> ~ down (h ++ [(i, ev)]).
Proof.
  intros N T F [J|(a & e & b & E & K)].
  - rewrite inputs_app in J. apply in_app_or in J as [J|[J|[]]]; [apply N; left; auto|now apply T].
  - apply app_one in E as [(-> & -> & E)|(b' & -> & E)]; [injection E as -> ->; apply K, F; auto|]. apply N. right. exists a, e, b'. rewrite E. auto.
Qed.
Lemma existsb_in x : existsb is_booted x = true <-> In Booted x.
Proof. rewrite existsb_exists. split; [intros (e & J & E); destruct e; try discriminate; auto|intro J; exists Booted; auto]. Qed.
Lemma not_in_booted x : existsb is_booted x = false -> ~ In Booted x.
Proof. intros E J. apply existsb_in in J. congruence. Qed.
Lemma first_step d : reach d [] -> d = dom0.
Proof. intro R. inversion R as [|? h ? ? ? ? ? ? ? E]; [auto|]. destruct h; discriminate. Qed.
Lemma reach_kept d h : reach d h -> kept d h.
Proof.
  intro R. induction R as [|d h o i d' ev R IH P S].
  - constructor; [split; [constructor|split; [exact Logic.I|reflexivity]]| |].
    + intros p gs m es (ev & r & E). discriminate.
    + cbn. split; [auto|]. intros [[]|(a & ev & b & E & _)]. destruct a; discriminate.
  - assert (C : h = [] \/ h <> []) by (destruct h; [auto|right; discriminate]). destruct C as [-> |N].
    + apply first_step in R. subst d. destruct P as [P _]. destruct i; try (exfalso; now destruct P); try (exfalso; now apply P).
      destruct P as (_ & _ & ND & _). destruct (begin_facts _ _ _ _ _ _ _ ND S) as (A1 & A2 & A3 & A4 & A5 & A6 & A7 & A8). constructor; auto.
      * intros p gs' m es' (e & r & E). cbn in E. injection E as <- <- <- <- _ _. auto.
      * cbn [app]. rewrite A7, effects_one. assert (ND' : ~ down [(Begin pid gs mgr es, ev)]).
        { intros [[E|[]]|(a & e & b & E & _)]; [discriminate|]. destruct a as [|x a]; [discriminate|]. injection E as _ E. destruct a; discriminate. }
        destruct (existsb is_booted ev) eqn:B; [split; [now apply existsb_in|auto]|split; [now apply not_in_booted|auto]].
    + pose proof (not_begin h o i P N) as NB. destruct IH as [K1 K2 K3]. destruct (step_all o i d d' ev K1 NB S). constructor; auto.
      * intros p gs m es B. apply begun_inv in B; [|auto]. destruct (K2 _ _ _ _ B) as (E1 & E2 & E3). rewrite f_groups0, f_mgr0, f_conf0. auto.
      * rewrite f_level0. unfold level_after. rewrite effects_app, effects_one.
        assert (GEN : i <> Terminate -> i <> Fatal -> match (if existsb is_booted ev then raise (d_level d) else d_level d) with Startup => ~ In Booted (effects h ++ ev) /\ ~ down (h ++ [(i, ev)]) | Running => In Booted (effects h ++ ev) /\ ~ down (h ++ [(i, ev)]) | Down | Error => down (h ++ [(i, ev)]) end).
        { intros T F. destruct (existsb is_booted ev) eqn:B.
          - apply existsb_in in B. destruct (d_level d); cbn [raise]; try (now apply down_app); (split; [apply in_or_app; auto|apply not_down_app; tauto]).
          - apply not_in_booted in B. destruct (d_level d); try (now apply down_app); (split; [|apply not_down_app; tauto]).
            + intro J. apply in_app_or in J. tauto.
            + apply in_or_app. tauto. }
        destruct i; try (apply GEN; discriminate).
        -- assert (X : down (h ++ [(Terminate, ev)])) by (left; rewrite inputs_app; apply in_or_app; right; left; reflexivity). destruct (d_level d); exact X.
        -- destruct (d_level d) eqn:L.
           ++ right. exists h, ev, []. split; [auto|]. tauto.
           ++ assert (X : ~ down (h ++ [(Fatal, ev)])) by (apply not_down_app; [tauto|discriminate|tauto]). destruct (existsb is_booted ev); cbn [raise]; (split; [apply in_or_app; tauto|auto]).
           ++ destruct (existsb is_booted ev); now apply down_app.
           ++ destruct (existsb is_booted ev); now apply down_app.
Qed.
(* a part of it *)
Lemma reach_prefix d h x : reach d (h ++ x) -> exists d0, reach d0 h.
Proof.
  revert d. induction x as [|y x IH] using rev_ind; intros d R; [rewrite app_nil_r in R; eauto|]. rewrite app_assoc in R. inversion R as [E|d1 h1 o i d' ev R1 P S E1 E2]; [destruct (h ++ x); discriminate|].
  apply app_inj_tail in E2 as [E2 _]. subst h1. eauto.
Qed.
Lemma reach_last d h i ev : reach d (h ++ [(i, ev)]) -> exists d0 o, reach d0 h /\ possible h o i /\ step o i d0 = Some (d, ev).
Proof. intro R. inversion R as [E|d1 h1 o j d' ev' R1 P S E1 E2]; [destruct h; discriminate|]. apply app_inj_tail in E2 as [-> E2]. injection E2 as -> ->. eauto. Qed.

(* ---- C97: the boot, in sequence ---- *)
Lemma boot_plan d h p gs m es : reach d h -> begun p gs m es h -> ~ down h -> exists more, orders more /\ marks (effects h) ++ plan (d_tasks d) = in_turn (boot_order gs m es) ++ [Booted] ++ more /\ ((forall l, ~ In (ScaleTo l) (inputs h)) -> more = []).
Proof.
  intros R. induction R as [|d h o i d' ev R IH P S]; intros B ND; [destruct B as (? & ? & B); discriminate|].
  assert (C : h = [] \/ h <> []) by (destruct h; [auto|right; discriminate]). destruct C as [-> |N].
  - apply first_step in R. subst d. destruct B as (e & r & B). cbn in B. injection B as -> -> _. destruct P as [(_ & _ & NDp & _) _].
    destruct (begin_facts _ _ _ _ _ _ _ NDp S) as (_ & _ & _ & _ & _ & _ & _ & A8). exists []. split; [apply orders_nil|]. cbn [app]. rewrite effects_one. split; [auto|auto].
  - pose proof (not_begin h o i P N) as NB. pose proof (reach_kept _ _ R) as [K1 K2 K3]. destruct (step_all o i d d' ev K1 NB S). pose proof (begun_inv _ _ _ _ _ _ _ B N) as B'.
    assert (ND' : ~ down h) by (intro D; apply ND; now apply down_app). destruct (IH B' ND') as (more & O & E & Z).
    assert (EI : ends_it i d = false).
    { destruct i; auto; cbn; [exfalso; apply ND; left; rewrite inputs_app; apply in_or_app; right; left; reflexivity|]. destruct (d_level d); auto. exfalso. apply ND. right. exists h, ev, []. tauto. }
    rewrite EI in f_plan0. destruct f_plan0 as (more' & O' & E' & Z'). exists (more ++ more'). split; [now apply orders_app|]. rewrite effects_app, effects_one, marks_app. split.
    + rewrite <- app_assoc, E', app_assoc, E. cbn. rewrite <- app_assoc. auto.
    + intro Q. rewrite Z, Z'; auto.
      * intros l ->. apply (Q l). rewrite inputs_app. apply in_or_app. right. left. reflexivity.
      * intros l J. apply (Q l). rewrite inputs_app. apply in_or_app. auto.
Qed.
Theorem boot_sequence d h p gs m es : reach d h -> begun p gs m es h -> ~ down h ->
  exists more, (exists l, more = flat_map (fun b => [Begun b; Ended b; Done WScale]) l) /\ prefix (marks (effects h)) (in_turn (boot_order gs m es) ++ [Booted] ++ more) /\ ((forall l, ~ In (ScaleTo l) (inputs h)) -> more = []).
Proof. intros R B ND. destruct (boot_plan d h p gs m es R B ND) as (more & O & E & Z). exists more. split; [exact O|]. split; [|auto]. exists (plan (d_tasks d)). auto. Qed.

(* ---- the shutdown, in sequence ---- *)
Lemma shutdown_plan d h p gs m es ev r : reach d (h ++ (Terminate, ev) :: r) -> begun p gs m es h -> ~ In Terminate (inputs r) -> exists d0 more, reach d0 h /\ orders more /\
    marks (ev ++ effects r) ++ plan (d_tasks d) = plan (firstn 1 (d_tasks d0)) ++ in_turn (rev (boot_order gs m es)) ++ [Done WShutdown] ++ more /\ ((forall l, ~ In (ScaleTo l) (inputs r)) -> more = []).
Proof.
  intros R B. revert r d R. intros r. induction r as [|[i e] r IH] using rev_ind; intros d R NT.
    - apply reach_last in R as (d0 & o & R0 & P & S). pose proof (reach_kept _ _ R0) as [K1 K2 K3]. destruct (K2 _ _ _ _ B) as (C1 & C2 & C3).
      destruct (step_all o Terminate d0 d ev K1) as [A1 A2 A3 A4 A5 A6 A7 A8]; [discriminate|auto|]. cbn [ends_it] in A8.
      exists d0, []. split; [exact R0|]. split; [apply orders_nil|]. split; [|auto]. cbn [effects flat_map]. rewrite !app_nil_r, A8, C1, C2. rewrite (conf_shutdown gs m _ _ C3). reflexivity.
    - rewrite app_comm_cons, app_assoc in R. apply reach_last in R as (d0 & o & R0 & P & S). destruct (IH d0 R0) as (d1 & more & F & O & E & Z); [intro J; apply NT; rewrite inputs_app; apply in_or_app; auto|].
      pose proof (reach_kept _ _ R0) as [K1 K2 K3]. assert (N : h ++ (Terminate, ev) :: r <> []) by (intro Q; apply app_eq_nil in Q as [_ Q]; discriminate). pose proof (not_begin _ o i P N) as NB.
      destruct (step_all o i d0 d e K1 NB S) as [A1 A2 A3 A4 A5 A6 A7 A8].
      assert (D : down (h ++ (Terminate, ev) :: r)) by (left; rewrite inputs_app; apply in_or_app; right; left; reflexivity).
      assert (EI : ends_it i d0 = false). { destruct i; auto; cbn; [exfalso; apply NT; rewrite inputs_app; apply in_or_app; right; left; reflexivity|]. destruct (d_level d0); auto. tauto. }
      rewrite EI in A8. destruct A8 as (more' & O' & E' & Z'). exists d1, (more ++ more'). split; [auto|]. split; [now apply orders_app|]. split.
      + rewrite effects_app, effects_one, app_assoc, marks_app, <- app_assoc, E', app_assoc, E. rewrite <- !app_assoc. reflexivity.
      + intro Q. rewrite Z, Z'; auto.
        * intros l ->. apply (Q l). rewrite inputs_app. apply in_or_app. right. left. reflexivity.
        * intros l J. apply (Q l). rewrite inputs_app. apply in_or_app. auto.
Qed.

(* ---- when a batch is done ---- *)
Lemma settled_rest k i : settled k i = true -> at_rest k i.
Proof.
  unfold settled, state_of, at_rest. destruct i as [p q w]. cbn [i_pid i_ipc i_want]. destruct k, w, p as [p|], q as [q|]; cbn; intro H; try discriminate; auto; eauto; intro K;
    repeat match goal with X : exists _, _ |- _ => destruct X | X : _ /\ _ |- _ => destruct X end; discriminate.
Qed.
Theorem batch_at_rest d h i ev b e : reach d (h ++ [(i, ev)]) -> In (Ended b) ev -> In e (d_ents d) -> In (e_id e) b -> forall x, In x (e_inst e) -> at_rest (e_kind e) x.
Proof.
  intros R J K Kb x X. pose proof (k_rest _ _ (reach_kept _ _ R)) as (U & _). apply reach_last in R as (d0 & o & R0 & P & S). assert (G : group_done b d = true).
  { assert (C : h = [] \/ h <> []) by (destruct h; [auto|right; discriminate]). destruct C as [-> |N].
    - apply first_step in R0. subst d0. destruct P as [P _]. destruct i; try (exfalso; now destruct P); try (exfalso; now apply P).
      destruct P as (_ & _ & ND & _). destruct (begin_facts _ _ _ _ _ _ _ ND S) as (_ & _ & _ & _ & A5 & _). auto.
    - destruct (step_all o i d0 d ev (k_rest _ _ (reach_kept _ _ R0)) (not_begin h o i P N) S). auto. }
  unfold group_done in G. rewrite forallb_forall in G. specialize (G _ Kb). unfold ent_done in G. rewrite (in_entity d e U K) in G. rewrite forallb_forall in G. apply settled_rest. auto.
Qed.
(* what's spawned is of the batch that has begun. Only when it runs is one spawned for other reasons: when another has ended *)
Theorem spawned_in_batch d h i ev a id p c : reach d (h ++ [(i, ev)]) -> (forall q, i = Exit q -> In Booted (effects h) -> down h) -> ev = a ++ Spawned id p :: c -> exists a1 b a2, a = a1 ++ Begun b :: a2 /\ marks a2 = [] /\ In id b.
Proof.
  intros R H E. apply reach_last in R as (d0 & o & R0 & P & S). assert (G : sp_ok ev); [|now apply (G a id p c)].
  assert (C : h = [] \/ h <> []) by (destruct h; [auto|right; discriminate]). destruct C as [-> |N].
  - apply first_step in R0. subst d0. destruct P as [P _]. destruct i; try (exfalso; now destruct P); try (exfalso; now apply P).
    destruct P as (_ & _ & ND & _). destruct (begin_facts _ _ _ _ _ _ _ ND S) as (_ & _ & _ & _ & _ & A6 & _). auto.
  - destruct (step_all o i d0 d ev (k_rest _ _ (reach_kept _ _ R0)) (not_begin h o i P N) S). apply f_spawn0. intros q -> L. pose proof (k_level _ _ (reach_kept _ _ R0)) as K. rewrite L in K. destruct K as [K1 K2]. apply K2. now apply (H q).
Qed.

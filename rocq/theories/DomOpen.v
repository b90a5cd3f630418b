(* The domain manager: the batch that's going on. *)
From Coq Require Import ZArith List Bool Lia Permutation.
From Verif Require Import DomModel DomSpec DomBoot DomFrame DomMarks DomStep DomSeq.
Import ListNotations.
Local Open Scope Z_scope.

(* ---- what's been done and what's left to do: whole batches ---- *)
Inductive blocks : list effect -> Prop :=
| b_nil : blocks []
| b_batch b l : blocks l -> blocks (Begun b :: Ended b :: l)
| b_booted l : blocks l -> blocks (Booted :: l)
| b_done w l : blocks l -> blocks (Done w :: l).
Lemma blocks_app a b : blocks a -> blocks b -> blocks (a ++ b).
Proof. intros A B. induction A; cbn; [exact B|constructor; auto..]. Qed.
Lemma blocks_turn o : blocks (in_turn o).
Proof. unfold in_turn. induction o as [|b o IH]; cbn; constructor; auto. Qed.
Lemma blocks_orders l : blocks (flat_map (fun b => [Begun b; Ended b; Done WScale]) l).
Proof. induction l as [|b o IH]; cbn; repeat constructor; auto. Qed.
(* up to an end *)
Lemma blocks_ended a b r : blocks (a ++ Ended b :: r) -> blocks (a ++ [Ended b]) /\ exists a', a = a' ++ [Begun b].
Proof.
  remember (a ++ Ended b :: r) as l eqn:E. intro B. revert a E. induction B as [|b' l B IH|l B IH|w l B IH]; intros a E.
  - destruct a; discriminate.
  - destruct a as [|x a]; [discriminate|]. injection E as <- E. destruct a as [|y a].
    + cbn in E. injection E as -> ->. split; [cbn; constructor; constructor|]. exists []. reflexivity.
    + injection E as <- E. destruct (IH a E) as (P & a' & ->). split; [cbn; constructor; exact P|]. exists (Begun b' :: Ended b' :: a'). reflexivity.
  - destruct a as [|x a]; [discriminate|]. injection E as <- E. destruct (IH a E) as (P & a' & ->). split; [cbn; constructor; exact P|]. exists (Booted :: a'). reflexivity.
  - destruct a as [|x a]; [discriminate|]. injection E as <- E. destruct (IH a E) as (P & a' & ->). split; [cbn; constructor; exact P|]. exists (Done w :: a'). reflexivity.
Qed.
Lemma blocks_last a b : ~ blocks (a ++ [Begun b]).
Proof.
  remember (a ++ [Begun b]) as l eqn:E. intro B. revert a E. induction B as [|b' l B IH|l B IH|w l B IH]; intros a E.
  - destruct a; discriminate.
  - destruct a as [|x a]; [discriminate|]. injection E as <- E. destruct a as [|y a]; [discriminate|]. injection E as <- E. now apply (IH a).
  - destruct a as [|x a]; [discriminate|]. injection E as <- E. now apply (IH a).
  - destruct a as [|x a]; [discriminate|]. injection E as <- E. now apply (IH a).
Qed.
Lemma reach_blocks d h : reach d h -> blocks (marks (effects h) ++ plan (d_tasks d)).
Proof.
  intro R. induction R as [|d h o i d' ev R IH P S]; [constructor|]. assert (C : h = [] \/ h <> []) by (destruct h; [auto|right; discriminate]). rewrite effects_app, effects_one, marks_app, <- app_assoc. destruct C as [-> |N].
  - apply first_step in R. subst d. destruct i; destruct P as [P _]; try (now destruct P). destruct P as (_ & _ & NDp & _). destruct (begin_facts _ _ _ _ _ _ _ NDp S) as (_ & _ & _ & _ & _ & _ & _ & A8). cbn [effects flat_map marks filter app]. rewrite A8. apply blocks_app; [apply blocks_turn|]. constructor. constructor.
  - pose proof (not_begin h o i P N) as NB. pose proof (reach_kept _ _ R) as [K1 K2 K3]. destruct (step_all o i d d' ev K1 NB S) as [_ _ _ _ _ _ _ A8]. destruct (ends_it i d).
    + rewrite A8. destruct K1 as (_ & F & _). destruct (d_tasks d) as [|t r]; cbn [firstn].
      * cbn [plan todo flat_map app] in *. rewrite app_nil_r in IH. apply blocks_app; [auto|]. apply blocks_app; [apply blocks_turn|]. constructor. constructor.
      * destruct t as [b| |w]; try contradiction. cbn [plan todo flat_map] in *. apply blocks_ended in IH as [IH _]. change ((Ended b :: []) ++ ?x) with ([Ended b] ++ x). rewrite app_assoc. apply blocks_app; [exact IH|]. apply blocks_app; [apply blocks_turn|]. constructor. constructor.
    + destruct A8 as (more & (l & ->) & -> & _). rewrite app_assoc. apply blocks_app; [auto|]. apply blocks_orders.
Qed.
Lemma marks_last l : (exists a b c, l = a ++ Begun b :: c /\ marks c = []) \/ marks l = [] \/ exists m e, marks l = m ++ [e] /\ mark e = true /\ forall b, e <> Begun b.
Proof.
  induction l as [|x l IH] using rev_ind; [right; left; reflexivity|]. rewrite marks_app. assert (K : marks [x] = if mark x then [x] else []) by (unfold marks; cbn; auto). destruct (mark x) eqn:M; rewrite K.
  - destruct x; try discriminate; try (right; right; eexists; eexists; split; [reflexivity|]; split; [auto|discriminate]). left. exists l, ids, []. auto.
  - rewrite app_nil_r. destruct IH as [(a & b & c & -> & C)|IH]; [|auto]. left. exists a, b, (c ++ [x]). split; [now rewrite <- app_assoc|]. now rewrite marks_app, C, K.
Qed.
Lemma going_marks b h : going_on b h <-> exists a, marks (effects h) = a ++ [Begun b].
Proof.
  split.
  - intros (a & c & E & M). exists (marks a). rewrite E, marks_app. unfold marks at 2. cbn [filter mark]. change (filter mark c) with (marks c). now rewrite M.
  - intros (a & E). destruct (marks_last (effects h)) as [(x & b' & c & Q & M)|[Q|(m & e & Q & _ & N)]].
    + exists x, c. split; [|auto]. rewrite Q, marks_app in E. unfold marks at 2 in E. cbn [filter mark] in E. change (filter mark c) with (marks c) in E. rewrite M in E. apply app_inj_tail in E as [_ E]. injection E as ->. auto.
    + rewrite Q in E. destruct a; discriminate.
    + rewrite Q in E. apply app_inj_tail in E as [_ E]. exfalso. now apply (N b).
Qed.
Theorem going_iff d h b : reach d h -> going_on b h <-> exists r, d_tasks d = TScale b :: r.
Proof.
  intro R. pose proof (reach_blocks d h R) as B. pose proof (k_rest _ _ (reach_kept _ _ R)) as (_ & F & _). rewrite going_marks. split.
  - intros (a & E). rewrite E in B. destruct (d_tasks d) as [|[c| |w] r]; try contradiction.
    + cbn in B. rewrite app_nil_r in B. now apply blocks_last in B.
    + cbn [plan] in B. apply blocks_ended in B as [_ (a' & B)]. apply app_inj_tail in B as [_ B]. injection B as ->. eauto.
  - intros (r & E). rewrite E in B. cbn [plan] in B. apply blocks_ended in B as [_ B]. exact B.
Qed.

(* ---- the shutdown, in sequence ---- *)
Theorem shutdown_sequence d h p gs m es ev r : reach d (h ++ (Terminate, ev) :: r) -> begun p gs m es h -> ~ In Terminate (inputs r) ->
  exists first more, (forall b, going_on b h -> first = [Ended b]) /\ ((forall b, ~ going_on b h) -> first = []) /\ (exists l, more = flat_map (fun b => [Begun b; Ended b; Done WScale]) l) /\
    prefix (marks (ev ++ effects r)) (first ++ in_turn (rev (boot_order gs m es)) ++ [Done WShutdown] ++ more) /\ ((forall l, ~ In (ScaleTo l) (inputs r)) -> more = []) /\
    (stopped d = true -> marks (ev ++ effects r) = first ++ in_turn (rev (boot_order gs m es)) ++ [Done WShutdown] ++ more).
Proof.
  intros R B NT. destruct (shutdown_plan d h p gs m es ev r R B NT) as (d0 & more & R0 & O & E & Z).
  exists (plan (firstn 1 (d_tasks d0))), more. pose proof (k_rest _ _ (reach_kept _ _ R0)) as (_ & F & _). split; [|split].
  - intros b G. apply (going_iff _ _ _ R0) in G as (t & ->). reflexivity.
  - intro G. destruct (d_tasks d0) as [|[b| |w] t] eqn:T; try contradiction; [reflexivity|]. exfalso. apply (G b). apply (going_iff _ _ _ R0). eauto.
  - split; [exact O|]. split; [exists (plan (d_tasks d)); auto|]. split; [auto|]. intro St. unfold stopped in St. apply andb_prop in St as [_ St]. destruct (d_tasks d); [|discriminate]. cbn in E. rewrite app_nil_r in E. exact E.
Qed.

(* ---- it goes on when it can ---- *)
Definition stuck (d : dom) : Prop := match d_tasks d with TScale b :: _ => group_done b d = false | _ => True end.
Lemma stuck_out x d : stuck d -> stuck (set_out x d). Proof. exact (fun H => H). Qed.
Lemma stuck_next l : forall d, stuck (next l d).
Proof.
  induction l as [|t r IH]; intro d; cbn [next]; [exact Logic.I|]. destruct (start t d) as [d1 a] eqn:S. destruct a; [apply IH|]. unfold stuck. cbn [set_tasks d_tasks]. destruct t as [b| |w]; cbn [start] in S; try discriminate.
  destruct (group_done b _) eqn:G in S; [discriminate|]. injection S as <-. exact G.
Qed.
Lemma stuck_dispatch d : stuck (dispatch d).
Proof.
  unfold dispatch. destruct (d_tasks d) as [|[b| |w] r] eqn:T; try (unfold stuck; rewrite T; exact Logic.I). destruct (group_done b d) eqn:G; [apply stuck_next|]. unfold stuck. now rewrite T.
Qed.
Lemma stuck_then d t : uniq d -> stuck d -> stuck (andthen d t).
Proof.
  intros U H. unfold andthen. destruct (d_tasks d) as [|u r] eqn:T.
  - destruct (start_moved t d U) as (_ & _ & E & _). destruct (start t d) as [d1 a] eqn:S. cbn [fst] in E. rewrite T in E. destruct a; [unfold stuck; now rewrite E|].
    destruct t as [b| |w]; cbn [start] in S; try discriminate. destruct (group_done b _) eqn:G in S; [discriminate|]. injection S as <-. exact G.
  - unfold stuck in *. rewrite T in H. cbn [set_tasks d_tasks app]. destruct u; auto.
Qed.
Lemma stuck_thens l : forall d, uniq d -> front_ok (d_tasks d) -> stuck d -> stuck (fold_left andthen l d).
Proof.
  induction l as [|t r IH]; intros d U F H; [auto|]. cbn [fold_left]. destruct (andthen_moved d t U F) as (x & M & _ & G). apply IH; [now apply (moved_uniq d _ x)|auto|now apply stuck_then].
Qed.
Lemma step_stuck o i d d' ev : (forall p gs m es, i = Begin p gs m es -> NoDup (map e_id es)) -> d_out d = [] -> step o i d = Some (d', ev) -> tells d i ev -> stuck d'.
Proof.
  intros BN OE S T. unfold step in S. destruct i; cbn [tells] in T; try contradiction; cbn [handle option_map] in S; injection S as <- <-; apply stuck_out.
  - unfold boot. specialize (BN _ _ _ _ eq_refl). cbn [set_out set_orc d_orc d_groups d_mgr d_ents]. set (d0 := Dom Startup gs mgr es [] [] [] [pid] [] [] o []).
    destruct (fold_andthen (map TScale (boot_order gs mgr es)) d0 BN Logic.I) as (x & M & _ & G). apply stuck_then; [apply (moved_uniq d0 _ x M BN)|]. apply stuck_thens; [exact BN|exact Logic.I|exact Logic.I].
  - unfold exit. destruct (remove _ _). apply stuck_dispatch.
  - destruct T as (a & l & r & T). unfold own. cbn [set_out set_orc d_self]. rewrite T. apply stuck_dispatch.
  - assert (JS : forall x d0, stuck (say [x] (join c d0))) by (intros x d0; rewrite join_eq; apply (stuck_dispatch (join_pre c d0))). unfold connect in *. cbn [set_out set_orc d_level] in *.
    assert (DN : forall d0, d_out d0 = [] -> ~ In (Answer (c_pid c) (c_ipc c) true) (d_out (say [Answer (c_pid c) (c_ipc c) false] d0))) by (intros d0 E; cbn; rewrite E; intros [K|[]]; discriminate).
    destruct (rank Running <? _); [exfalso; revert T; now apply DN|]. destruct (c_sing c) as [id|]; [|apply JS]. destruct (singleton id _); [|apply JS]. exfalso. revert T. apply DN. destruct (server_of _ _); [reflexivity|]. destruct (exec_of _ _); reflexivity.
Qed.
Lemma rest_settled k i : at_rest k i -> settled k i = true.
Proof.
  unfold settled, state_of, at_rest. destruct i as [p q w]. cbn [i_pid i_ipc i_want]. destruct k, w, p as [p|], q as [q|]; cbn; intro H; auto;
    try (exfalso; apply H; eauto; fail); repeat match goal with X : exists _, _ |- _ => destruct X | X : _ /\ _ |- _ => destruct X end; discriminate.
Qed.
Theorem batch_goes_on d0 h o i d ev b : reach d0 h -> possible h o i -> step o i d0 = Some (d, ev) -> tells d0 i ev -> going_on b (h ++ [(i, ev)]) ->
  exists e x, In e (d_ents d) /\ In (e_id e) b /\ In x (e_inst e) /\ ~ at_rest (e_kind e) x.
Proof.
  intros R0 P S T G. pose proof (reach_step d0 h o i d ev R0 P S) as R. apply (going_iff d _ b R) in G as (r & E). destruct (k_rest _ _ (reach_kept _ _ R0)) as (_ & _ & O).
  assert (K : stuck d). { apply (step_stuck o i d0 d ev); auto. intros p gs m es ->. destruct P as [(_ & _ & X & _) _]. exact X. }
  unfold stuck in K. rewrite E in K. unfold group_done in K.
  assert (X : exists id, In id b /\ ent_done d id = false). { clear - K. induction b as [|y b IH]; [discriminate|]. cbn [forallb] in K. apply andb_false_iff in K as [K|K]; [exists y; cbn; auto|]. destruct (IH K) as (z & A & B). exists z. cbn. auto. }
  destruct X as (id & J & K'). unfold ent_done in K'. destruct (entity id d) as [e|] eqn:Ee; [|discriminate]. apply entity_in in Ee as [J1 J2].
  assert (X : exists x, In x (e_inst e) /\ settled (e_kind e) x = false). { clear - K'. induction (e_inst e) as [|y l IH]; [discriminate|]. cbn [forallb] in K'. apply andb_false_iff in K' as [K|K]; [exists y; cbn; auto|]. destruct (IH K) as (z & A & B). exists z. cbn. auto. }
  destruct X as (x & X1 & X2). exists e, x. split; [auto|]. split; [congruence|]. split; [auto|]. intro A. apply rest_settled in A. congruence.
Qed.

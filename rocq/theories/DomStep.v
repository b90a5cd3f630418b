(* The domain manager: what a step does. *)
From Coq Require Import ZArith List Bool Lia Permutation.
From Verif Require Import DomModel DomSpec DomFrame DomMarks.
Import ListNotations.
Local Open Scope Z_scope.

(* before the tasks are told *)
Record pre (d d' : dom) (x : list effect) : Prop := Pre {
  p_groups : d_groups d' = d_groups d; p_mgr : d_mgr d' = d_mgr d; p_conf : map conf (d_ents d') = map conf (d_ents d); p_level : d_level d' = d_level d;
  p_tasks : d_tasks d' = d_tasks d; p_out : d_out d' = d_out d ++ x; p_marks : marks x = [] }.
Lemma pre_refl d : pre d d [].
Proof. constructor; auto. now rewrite app_nil_r. Qed.
Lemma pre_trans a b c x y : pre a b x -> pre b c y -> pre a c (x ++ y).
Proof.
  intros A B. constructor.
  - rewrite (p_groups _ _ _ B). apply A.
  - rewrite (p_mgr _ _ _ B). apply A.
  - rewrite (p_conf _ _ _ B). apply A.
  - rewrite (p_level _ _ _ B). apply A.
  - rewrite (p_tasks _ _ _ B). apply A.
  - rewrite (p_out _ _ _ B), (p_out _ _ _ A). now rewrite app_assoc.
  - rewrite marks_app, (p_marks _ _ _ A), (p_marks _ _ _ B). auto.
Qed.
Lemma pre_uniq d d' x : pre d d' x -> uniq d -> uniq d'.
Proof. intros P U. unfold uniq. rewrite (conf_ids _ _ (p_conf _ _ _ P)). auto. Qed.
Lemma pre_frame d d' x id : frame d d' x -> (forall f, In f x -> of_ent id f) -> pre d d' x.
Proof. intros (A1 & A2 & A3 & A4 & A5 & A6 & A7 & A8 & A9 & A10) X. constructor; auto. now apply (of_ent_marks id). Qed.
Lemma pre_put d e x : uniq d -> In x (d_ents d) -> conf e = conf x -> pre d (put e d) [].
Proof. intros U J C. constructor; auto; [apply (put_conf _ _ _ U J C)|cbn; now rewrite app_nil_r]. Qed.
Lemma server_of_in p d e : server_of p d = Some e -> In e (d_ents d) /\ e_kind e = Server /\ existsb (has_pid p) (e_inst e) = true.
Proof. intro H. apply find_some in H as [J K]. destruct (e_kind e); [auto|discriminate]. Qed.
Lemma exec_of_in p d e : exec_of p d = Some e -> In e (d_ents d) /\ e_kind e = Exec /\ existsb (has_pid p) (e_inst e) = true.
Proof. intro H. apply find_some in H as [J K]. destruct (e_kind e); [discriminate|auto]. Qed.
Lemma pre_remove p d : uniq d -> pre d (fst (remove p d)) [].
Proof.
  intro U. unfold remove. set (d1 := set_sing _ _). assert (P1 : pre d d1 []) by (constructor; auto; cbn; now rewrite app_nil_r).
  assert (U1 : uniq d1) by exact U. assert (G : forall d', pre d d' [] -> pre d (set_grand (remove_first (fun h => fst h =? p) (d_grand d')) d') []) by (intros d' P; destruct P; constructor; auto).
  destruct (server_of p d1) as [e|] eqn:E.
  - apply server_of_in in E as (J & K & _). assert (P2 : pre d (put (ent_drop p e) d1) []) by (apply (pre_trans d d1 _ [] []); [auto|now apply (pre_put _ _ e)]).
    destruct (e_restart e && _); [exact P2|]. destruct (exec_of p (put (ent_drop p e) d1)) as [y|] eqn:E2.
    + apply exec_of_in in E2 as (J2 & K2 & _). assert (P3 : pre d (put (ent_drop p y) (put (ent_drop p e) d1)) []) by (apply (pre_trans d (put (ent_drop p e) d1) _ [] []); [auto|apply (pre_put _ _ y); auto; now apply (pre_uniq d _ [])]).
      destruct (e_restart y && _); [exact P3|]. now apply G.
    + now apply G.
  - destruct (exec_of p d1) as [y|] eqn:E2.
    + apply exec_of_in in E2 as (J2 & K2 & _). assert (P3 : pre d (put (ent_drop p y) d1) []) by (apply (pre_trans d d1 _ [] []); [auto|now apply (pre_put _ _ y)]).
      destruct (e_restart y && _); [exact P3|]. now apply G.
    + now apply G.
Qed.
(* only when it runs is anything restarted *)
Lemma remove_running p d id : snd (remove p d) = Some id -> d_level d = Running.
Proof.
  unfold remove. cbv zeta. destruct (d_level d); intro H; [|auto| |].
  all: exfalso; destruct (server_of p _) as [e|]; [rewrite andb_false_r in H; destruct (exec_of p _); [rewrite andb_false_r in H|]|destruct (exec_of p _); [rewrite andb_false_r in H|]]; cbn in H; discriminate.
Qed.
Lemma answer_pre l d : exists x, pre d (fst (answer l d)) x /\ d_ents (fst (answer l d)) = d_ents d /\ (forall f, In f x -> match f with Found _ _ _ _ => True | _ => False end).
Proof.
  assert (S1 : forall a b c e, exists x, pre d (say [Found a b c e] d) x /\ d_ents (say [Found a b c e] d) = d_ents d /\ (forall f, In f x -> match f with Found _ _ _ _ => True | _ => False end)).
  { intros. eexists. split; [constructor; try reflexivity; auto|]. split; [reflexivity|]. intros f [<-|[]]. exact Logic.I. }
  assert (S0 : exists x, pre d d x /\ d_ents d = d_ents d /\ (forall f, In f x -> match f with Found _ _ _ _ => True | _ => False end)) by (exists []; split; [apply pre_refl|split; [auto|contradiction]]).
  unfold answer. destruct (l_id l); [destruct (singleton _ d); [apply S1|destruct (direct l d); [apply S1|exact S0]]|].
  destruct (l_proc l); [|exact S0]. destruct (_ || _); [apply S1|exact S0].
Qed.
Lemma answer_all_pre ls : forall d, exists x, pre d (fst (answer_all ls d)) x /\ d_ents (fst (answer_all ls d)) = d_ents d /\ (forall f, In f x -> match f with Found _ _ _ _ => True | _ => False end).
Proof.
  induction ls as [|l r IH]; intro d; cbn [answer_all]; [exists []; split; [apply pre_refl|split; [auto|contradiction]]|].
  destruct (answer_pre l d) as (x & P & E & X). destruct (answer l d) as [d1 b]. cbn [fst] in *. destruct (IH d1) as (y & Q & F & Y). destruct (answer_all r d1) as [d2 k]. cbn [fst] in *.
  exists (x ++ y). split; [now apply (pre_trans d d1)|]. split; [congruence|]. intros f J. apply in_app_or in J as [J|J]; [apply (X f J)|apply (Y f J)].
Qed.
Lemma scale_conf n e e' : scale n e = Some e' -> conf e' = conf e.
Proof. unfold scale. destruct (_ <? _); [intro H; injection H as <-; auto|]. destruct (_ <? _); [discriminate|]. intro H; injection H as <-. auto. Qed.
Lemma scale_to_conf n e : conf (scale_to n e) = conf e.
Proof. unfold scale_to. destruct (scale n e) eqn:E; [now apply (scale_conf n)|auto]. Qed.
(* what connect does before the tasks are told *)
Definition join_pre (c : conn) (d : dom) : dom :=
  let d1 := match server_of (c_pid c) d with Some e => put (ent_conn (c_pid c) (c_ipc c) e) d | None => set_grand (d_grand d ++ [(c_pid c, c_ipc c)]) d end in
  let (d2, k) := answer_all (d_look d1) d1 in set_look k d2.
Lemma join_eq c d : join c d = dispatch (join_pre c d).
Proof. unfold join, join_pre. cbv zeta. destruct (answer_all _ _). reflexivity. Qed.
Lemma join_pre_pre c d : uniq d -> exists x, pre d (join_pre c d) x /\ (forall f, In f x -> match f with Found _ _ _ _ => True | _ => False end).
Proof.
  intro U. unfold join_pre. set (d1 := match server_of _ d with Some _ => _ | None => _ end). cbv zeta. assert (P : pre d d1 []).
  { unfold d1. destruct (server_of (c_pid c) d) as [e|] eqn:E; [apply server_of_in in E as (J & K & _); now apply (pre_put _ _ e)|constructor; auto; cbn; now rewrite app_nil_r]. }
  destruct (answer_all_pre (d_look d1) d1) as (x & Q & _ & X). destruct (answer_all _ _) as [d2 k]. cbn [fst] in *. exists x. split; [|auto].
  pose proof (pre_trans _ _ _ _ _ P Q) as T. destruct T. constructor; auto.
Qed.
Lemma scale_all_pre l es : forall d d', uniq d -> (forall e, In e es -> exists x, In x (d_ents d) /\ conf x = conf e) -> scale_all l es d = Some d' -> pre d d' [].
Proof.
  induction es as [|e r IH]; intros d d' U H; cbn [scale_all]; [intro E; injection E as <-; apply pre_refl|].
  assert (Hr : forall e0, In e0 r -> exists x, In x (d_ents d) /\ conf x = conf e0) by (intros; apply H; cbn; auto).
  destruct (find _ l) as [y|]; [|now apply IH]. destruct (scale (snd y) e) as [e'|] eqn:S; [|discriminate]. apply scale_conf in S.
  destruct (H e (or_introl eq_refl)) as (x & J & C). assert (P : pre d (put e' d) []) by (apply (pre_put _ _ x); auto; congruence).
  intro E. apply (pre_trans d (put e' d) d' [] []); [auto|]. apply IH; [now apply (pre_uniq d _ [])| |auto].
  intros e0 K. destruct (Hr e0 K) as (z & A & B). pose proof (p_conf _ _ _ P) as Q. apply (in_map conf) in A. rewrite <- Q in A. apply in_map_iff in A as (w & W & A). exists w. split; [auto|congruence].
Qed.
Lemma scalables_in d l e : In e (scalables d l) -> In e (d_ents d).
Proof.
  unfold scalables. assert (A : forall k a, In e (scalable d k a) -> In e (d_ents d)).
  { intros k a. unfold scalable. assert (X : In e (match by_alias Exec a d with Some x => if untouchable d x then [] else [x] | None => [] end) -> In e (d_ents d)).
    { destruct (by_alias Exec a d) as [x|] eqn:E; [|contradiction]. apply find_some in E as [J _]. destruct (untouchable d x); [contradiction|]. intros [<-|[]]. auto. }
    destruct (by_alias Server a d) as [x|] eqn:E; [apply find_some in E as [J _]; destruct (negb _)|]; destruct k; try contradiction; auto. intros [<-|[]]; auto. }
  intro J. apply in_app_or in J as [J|J]; apply in_flat_map in J as (a & _ & J); eauto.
Qed.

(* what's true of a step: [base] is what's left to do of what was to be done, [more] what's added *)
Record stepped (d d' : dom) (x base more : list effect) : Prop := Stepped {
  s_groups : d_groups d' = d_groups d; s_mgr : d_mgr d' = d_mgr d; s_conf : map conf (d_ents d') = map conf (d_ents d);
  s_front : front_ok (d_tasks d'); s_plan : marks x ++ plan (d_tasks d') = base ++ more; s_ended : forall b, In (Ended b) x -> group_done b d' = true }.
Lemma mark_in x e : marks x = [] -> mark e = true -> ~ In e x.
Proof. intros M K J. assert (A : In e (marks x)) by (apply filter_In; auto). now rewrite M in A. Qed.
Lemma existsb_booted x : marks x = [] -> existsb is_booted x = false.
Proof. intro M. destruct (existsb is_booted x) eqn:E; [|auto]. apply existsb_exists in E as (f & J & E). destruct f; try discriminate. exfalso. apply (mark_in _ Booted M); auto. Qed.
Lemma pre_moved d d1 d' x y : pre d d1 x -> moved d1 d' y -> front_ok (d_tasks d') -> forall more, marks y ++ plan (d_tasks d') = plan (d_tasks d1) ++ more -> d_out d' = d_out d ++ x ++ y /\ stepped d d' (x ++ y) (plan (d_tasks d)) more.
Proof.
  intros P M F more E. split; [rewrite (m_out _ _ _ M), (p_out _ _ _ P); now rewrite app_assoc|]. constructor.
  - rewrite (m_groups _ _ _ M). apply P.
  - rewrite (m_mgr _ _ _ M). apply P.
  - rewrite (m_conf _ _ _ M). apply P.
  - auto.
  - rewrite marks_app, (p_marks _ _ _ P). cbn [app]. now rewrite E, (p_tasks _ _ _ P).
  - intros b J. apply in_app_or in J as [J|J]; [exfalso; revert J; apply mark_in; [apply P|auto]|now apply (m_ended _ _ _ M)].
Qed.
Lemma moved_say d e : match e with Answer _ _ _ => True | _ => False end -> moved d (say [e] d) [e].
Proof. intro H. destruct e; try contradiction. constructor; cbn; auto. - intros b [E|[]]; discriminate. - apply sp_none. intros id q [E|[]]; discriminate. Qed.

(* the level after: [x] is all that's done *)
Definition lev (d d' : dom) (x : list effect) : Prop := d_level d' = if existsb is_booted x then raise (d_level d) else d_level d.
Lemma lev_moved d d1 d' x y : pre d d1 x -> moved d1 d' y -> lev d d' (x ++ y).
Proof. intros P M. unfold lev. rewrite existsb_app, (existsb_booted x (p_marks _ _ _ P)), (m_level _ _ _ M), (p_level _ _ _ P). reflexivity. Qed.
Definition no_sp (x : list effect) : Prop := forall id p, ~ In (Spawned id p) x.
Lemma sp_pre x y : no_sp x -> sp_ok y -> sp_ok (x ++ y).
Proof. intros A B. apply sp_app; [now apply sp_none|auto]. Qed.

(* all but the start, the ends, and to scale *)
Definition plain (i : input) : Prop := match i with Begin _ _ _ _ | Terminate | Fatal | ScaleTo _ => False | _ => True end.
Definition step_facts (d d' : dom) (x base more : list effect) (quiet : Prop) : Prop := stepped d d' x base more /\ lev d d' x /\ (quiet -> sp_ok x).
Definition handle_facts (d d' : dom) (x base more : list effect) (quiet : Prop) : Prop := d_out d' = d_out d ++ x /\ step_facts d d' x base more quiet.
Lemma facts_of d d1 d' x y (quiet : Prop) more : pre d d1 x -> moved d1 d' y -> front_ok (d_tasks d') -> marks y ++ plan (d_tasks d') = plan (d_tasks d1) ++ more -> (quiet -> no_sp x) -> handle_facts d d' (x ++ y) (plan (d_tasks d)) more quiet.
Proof. intros P M F E Q. destruct (pre_moved d d1 d' x y P M F more E) as [A B]. split; [auto|]. split; [auto|]. split; [now apply (lev_moved d d1)|]. intro K. apply sp_pre; [auto|apply M]. Qed.
Lemma handle_plain i d d' : uniq d -> front_ok (d_tasks d) -> plain i -> handle i d = Some d' -> exists x, handle_facts d d' x (plan (d_tasks d)) [] (forall p, i = Exit p -> d_level d <> Running).
Proof.
  intros U F Pl H. destruct i; try contradiction; cbn [handle] in H; injection H as <-.
  - (* exit *) unfold exit. pose proof (pre_remove pid d U) as P. pose proof (remove_running pid d) as R. destruct (remove pid d) as [d1 r]. cbn [fst snd] in *.
    assert (P1 : exists x, pre d (match r with Some id => instances_id d1 id | None => d1 end) x /\ ((forall p, Exit pid = Exit p -> d_level d <> Running) -> no_sp x)).
    { destruct r as [id|]; [|exists []; split; [auto|intros _ u v J; contradiction]]. destruct (inst_id_frame id d1) as (x & Fr & X); [now apply (pre_uniq d _ [])|].
      exists x. split; [apply (pre_trans d d1 _ [] x); [auto|now apply (pre_frame _ _ _ id)]|]. intro Q. exfalso. apply (Q pid eq_refl). now apply (R id). }
    destruct P1 as (x & P1 & Q). set (d2 := match r with Some _ => _ | None => _ end) in *. destruct (dispatch_moved d2) as (y & M & E & G); [now apply (pre_uniq d _ x)|rewrite (p_tasks _ _ _ P1); auto|].
    exists (x ++ y). apply (facts_of d d2); auto. now rewrite app_nil_r.
  - (* own *) unfold own. destruct (d_self d) as [|[a ps|l] r].
    + exists ([] ++ []). apply (facts_of d d); [apply pre_refl|apply moved_refl|auto|now rewrite app_nil_r|intros _ u v J; contradiction].
    + set (d2 := set_self r d). assert (P1 : pre d d2 []) by (constructor; auto; cbn; now rewrite app_nil_r). destruct (dispatch_moved d2) as (y & M & E & G); [exact U|exact F|].
      exists ([] ++ y). apply (facts_of d d2); auto; [now rewrite app_nil_r|intros _ u v J; contradiction].
    + exists (map (fun h => match snd h with Some q => Ask q | None => Term (fst h) end) l ++ []). apply (facts_of d (prepared l (set_self r d))); [|apply moved_refl|exact F|now rewrite app_nil_r|].
      * constructor; auto. unfold marks. clear. induction l as [|[a [q|]] l IH]; cbn; auto.
      * intros _ u v J. apply in_map_iff in J as ([a [q|]] & E & _); discriminate.
  - (* connect *) unfold connect. destruct (rank Running <? rank (d_level d)) eqn:L.
    { exists ([Answer (c_pid c) (c_ipc c) false] ++ []). apply (facts_of d (say [Answer (c_pid c) (c_ipc c) false] d)); [constructor; auto|apply moved_refl|exact F|now rewrite app_nil_r|]. intros _ u v [E|[]]; discriminate. }
    set (wh := fun d => if c_white c then set_white (d_white d ++ [c_pid c]) d else d).
    assert (JO : forall d0, pre d d0 [] -> exists x, handle_facts d (say [Answer (c_pid c) (c_ipc c) true] (join c d0)) x (plan (d_tasks d)) [] (forall p, Connect c = Exit p -> d_level d <> Running)).
    { intros d0 P0. rewrite join_eq. destruct (join_pre_pre c d0) as (x & P & X); [now apply (pre_uniq d _ [])|]. pose proof (pre_trans _ _ _ _ _ P0 P) as P1. cbn [app] in P1.
      destruct (dispatch_moved (join_pre c d0)) as (y & M & E & G); [now apply (pre_uniq d _ x)|rewrite (p_tasks _ _ _ P1); auto|].
      exists (x ++ y ++ [Answer (c_pid c) (c_ipc c) true]). apply (facts_of d (join_pre c d0)); auto.
      - apply (moved_trans _ (dispatch (join_pre c d0))); [auto|now apply moved_say].
      - cbn [say set_out d_tasks]. rewrite marks_app. cbn [marks filter mark]. rewrite !app_nil_r. exact E.
      - intros _ u v J. apply X in J. contradiction. }
    assert (W : forall d0, pre d d0 [] -> pre d (wh d0) []) by (intros d0 P0; unfold wh; destruct (c_white c); [destruct P0; constructor; auto|auto]).
    destruct (c_sing c) as [id|].
    + destruct (singleton id d) as [h|].
      * set (d1 := match server_of _ d with Some _ => _ | None => _ end). assert (P1 : pre d d1 []).
        { unfold d1. destruct (server_of (c_pid c) d) as [e|] eqn:E; [apply server_of_in in E as (J & K & _); apply (pre_put _ _ e); auto; now rewrite scale_to_conf|].
          destruct (exec_of (c_pid c) d) as [e|] eqn:E2; [|apply pre_refl]. apply exec_of_in in E2 as (J & K & _); apply (pre_put _ _ e); auto; now rewrite scale_to_conf. }
        exists ([] ++ [Answer (c_pid c) (c_ipc c) false]). apply (facts_of d d1); [auto|now apply moved_say| |cbn [say set_out d_tasks]; rewrite app_nil_r; reflexivity|intros _ u v J; contradiction].
        cbn [say set_out d_tasks]. rewrite (p_tasks _ _ _ P1). auto.
      * apply (JO (wh (set_sing (d_sing d ++ [(id, (c_pid c, c_ipc c))]) d))). apply W. constructor; auto. cbn. now rewrite app_nil_r.
    + apply (JO (wh d)). apply W, pre_refl.
  - (* lookup *) unfold lookup. destruct (answer_pre l d) as (x & P & E & X). destruct (answer l d) as [d1 b]. cbn [fst] in *.
    exists (x ++ []). destruct b; [apply (facts_of d d1)|apply (facts_of d (set_look (d_look d1 ++ [l]) d1))]; auto using moved_refl.
    + rewrite (p_tasks _ _ _ P). auto.
    + now rewrite app_nil_r.
    + intros _ u v J. apply X in J. contradiction.
    + destruct P; constructor; auto.
    + cbn. rewrite (p_tasks _ _ _ P). auto.
    + now rewrite app_nil_r.
    + intros _ u v J. apply X in J. contradiction.
  - (* prepared *) exists (map (fun h => match snd h with Some q => Ask q | None => Term (fst h) end) l ++ []). apply (facts_of d (prepared l d)); [|apply moved_refl|exact F|now rewrite app_nil_r|].
    + constructor; auto. unfold marks. clear. induction l as [|[a [q|]] l IH]; cbn; auto.
    + intros _ u v J. apply in_map_iff in J as ([a [q|]] & E & _); discriminate.
  - (* assassinate *) unfold assassinate. destruct (_ && _).
    + exists ([Kill pid] ++ []). apply (facts_of d (say [Kill pid] d)); [constructor; auto|apply moved_refl|exact F|now rewrite app_nil_r|]. intros _ u v [E|[]]; discriminate.
    + exists ([] ++ []). apply (facts_of d d); [apply pre_refl|apply moved_refl|auto|now rewrite app_nil_r|intros _ u v J; contradiction].
Qed.

(* to shut down *)
Definition down_pre (d : dom) : dom := let d1 := cancel (set_level Down d) in set_ents (map (fun e => if e_id e =? d_mgr d then e else scale_to 0 e) (d_ents d1)) d1.
Lemma shutdown_eq d : shutdown d = andthen (fold_left andthen (map TScale (shutdown_order (d_groups d) (d_mgr d) (d_ents (down_pre d)))) (down_pre d)) (TDone WShutdown).
Proof. reflexivity. Qed.
Lemma down_conf d : map conf (d_ents (down_pre d)) = map conf (d_ents d).
Proof. unfold down_pre. cbn. rewrite map_map. apply map_ext. intro e. destruct (_ =? _); [auto|apply scale_to_conf]. Qed.
(* the order is that of the configuration *)
Lemma conf_filter (p q : ent -> bool) : (forall e e', conf e = conf e' -> p e = p e') -> forall a b, map conf a = map conf b -> map conf (filter p a) = map conf (filter p b).
Proof.
  intros Hp a. induction a as [|x a IH]; intros b E; destruct b as [|y b]; try discriminate; [auto|]. cbn [map] in E.
  assert (X : conf x = conf y) by congruence. assert (Y : map conf a = map conf b) by congruence. cbn [filter]. rewrite (Hp x y X). destruct (p y); cbn [map]; [rewrite X|]; now rewrite (IH b Y).
Qed.
Lemma conf_member g e e' : conf e = conf e' -> member g e = member g e'.
Proof. unfold conf, member. intro H. assert (E : e_memb e = e_memb e') by congruence. now rewrite E. Qed.
Lemma conf_consume gs : forall a b, map conf a = map conf b -> consume gs a = consume gs b.
Proof.
  induction gs as [|g gs IH]; intros a b E; cbn [consume]; [auto|]. f_equal.
  - apply conf_ids. apply (conf_filter _ (member g)); [intros; now apply conf_member|auto].
  - apply IH. apply (conf_filter _ (member g)); [intros e e' C; now rewrite (conf_member g e e')|auto].
Qed.
Lemma conf_boot gs m a b : map conf a = map conf b -> boot_order gs m a = boot_order gs m b.
Proof.
  intro E. unfold boot_order. do 2 f_equal. apply conf_consume. apply (conf_filter _ (fun _ => true)); [|auto]. intros e e' C. unfold conf in C. assert (X : e_id e = e_id e') by congruence. now rewrite X.
Qed.
Lemma conf_shutdown gs m a b : map conf a = map conf b -> shutdown_order gs m a = shutdown_order gs m b.
Proof. intro E. unfold shutdown_order. now rewrite (conf_boot gs m a b). Qed.
Lemma shutdown_moved d : uniq d -> front_ok (d_tasks d) -> exists y, moved (down_pre d) (shutdown d) y /\ front_ok (d_tasks (shutdown d)) /\
  marks y ++ plan (d_tasks (shutdown d)) = plan (firstn 1 (d_tasks d)) ++ in_turn (shutdown_order (d_groups d) (d_mgr d) (d_ents d)) ++ [Done WShutdown].
Proof.
  intros U F. rewrite shutdown_eq. rewrite (conf_shutdown _ _ _ _ (down_conf d)).
  assert (U1 : uniq (down_pre d)) by (unfold uniq; rewrite (conf_ids _ _ (down_conf d)); auto).
  assert (F1 : front_ok (d_tasks (down_pre d))). { cbn. destruct (d_tasks d) as [|[b| |w] r]; try contradiction; exact Logic.I. }
  destruct (fold_andthen (map TScale (shutdown_order (d_groups d) (d_mgr d) (d_ents d))) (down_pre d) U1 F1) as (x & M & E & G). set (d2 := fold_left _ _ _) in *.
  destruct (andthen_moved d2 (TDone WShutdown) (moved_uniq _ _ _ M U1) G) as (y & N & E2 & G2). exists (x ++ y). split; [now apply (moved_trans _ d2)|]. split; [auto|].
  rewrite marks_app, <- app_assoc, E2, app_assoc, E, todo_scale, <- app_assoc. reflexivity.
Qed.
Lemma shutdown_level d : uniq d -> front_ok (d_tasks d) -> d_level (shutdown d) = match d_level d with Error => Error | _ => Down end.
Proof.
  intros U F. destruct (shutdown_moved d U F) as (y & M & _). rewrite (m_level _ _ _ M). unfold down_pre, cancel. cbn [d_level set_ents set_tasks set_level].
  destruct (d_level d); cbn; destruct (existsb is_booted y); reflexivity.
Qed.

Definition rest0 (d : dom) : Prop := uniq d /\ front_ok (d_tasks d) /\ d_out d = [].
Lemma step_plain o i d d' ev : rest0 d -> plain i -> step o i d = Some (d', ev) -> step_facts d d' ev (plan (d_tasks d)) [] (forall p, i = Exit p -> d_level d <> Running) /\ rest0 d'.
Proof.
  intros (U & F & O) Pl H. unfold step in H. set (d0 := set_out [] (set_orc o d)) in *. destruct (handle i d0) as [d1|] eqn:E; [|discriminate]. injection H as <- <-.
  destruct (handle_plain i d0 d1) as (x & s0 & St & L & Q); auto. destruct St as [s1 s2 s3 s5 s6 s7]. cbn [d_out d0 set_out app] in s0. rewrite s0. split.
  - split; [constructor; auto|]. split; [exact L|exact Q].
  - split; [|split; [exact s5|reflexivity]]. unfold uniq. cbn. rewrite (conf_ids _ _ s3). exact U.
Qed.

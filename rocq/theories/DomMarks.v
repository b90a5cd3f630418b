(* The domain manager: the tasks: in which order they're started and done, and what's true when one is done. *)
From Coq Require Import ZArith List Bool Lia Permutation.
From Verif Require Import DomModel DomSpec DomFrame.
Import ListNotations.
Local Open Scope Z_scope.

(* each spawn comes after the start of a batch with the entity, with no other event of a task in between *)
Definition sp_ok (x : list effect) : Prop := forall a id p c, x = a ++ Spawned id p :: c -> exists a1 b a2, a = a1 ++ Begun b :: a2 /\ marks a2 = [] /\ In id b.
Lemma sp_nil : sp_ok [].
Proof. intros a id p c E. destruct a; discriminate. Qed.
Lemma app_split {A} (x y a : list A) s c : x ++ y = a ++ s :: c -> (exists c', x = a ++ s :: c' /\ c = c' ++ y) \/ exists a', a = x ++ a' /\ y = a' ++ s :: c.
Proof.
  revert a. induction x as [|u x IH]; intros a E; cbn in E; [right; exists a; auto|]. destruct a as [|v a]; cbn in E.
  - injection E as -> <-. left. exists x. auto.
  - injection E as -> E. apply IH in E as [(c' & -> & ->)|(a' & -> & ->)]; [left; exists c'; auto|right; exists a'; auto].
Qed.
Lemma sp_app x y : sp_ok x -> sp_ok y -> sp_ok (x ++ y).
Proof.
  intros X Y a id p c E. apply app_split in E as [(c' & E & _)|(a' & -> & E)]; [eauto|]. apply Y in E as (a1 & b & a2 & -> & M & J). exists (x ++ a1), b, a2. rewrite app_assoc. auto.
Qed.
Definition no_spawn (x : list effect) : Prop := forall id p, ~ In (Spawned id p) x.
Lemma sp_none x : no_spawn x -> sp_ok x.
Proof. intros H a id p c ->. exfalso. apply (H id p). apply in_or_app. cbn. auto. Qed.
Lemma sp_begun ids x : (forall f, In f x -> exists id, In id ids /\ of_ent id f) -> sp_ok (Begun ids :: x).
Proof.
  intros H a id p c E. destruct a as [|u a]; cbn in E; [discriminate|]. injection E as <- E. exists [], ids, a. split; [auto|]. subst x.
  split; [|destruct (H (Spawned id p)) as (i & J & K); [apply in_or_app; cbn; auto|cbn in K; now subst]].
  assert (P : forall e, In e a -> mark e = false). { intros e J. destruct (H e) as (i & _ & K); [apply in_or_app; auto|]. destruct e; cbn in *; auto; contradiction. }
  clear - P. induction a as [|e a IH]; [auto|]. cbn. rewrite (P e (or_introl eq_refl)). apply IH. intros f J. apply P. cbn. auto.
Qed.

Definition raise (l : level) : level := match l with Startup => Running | _ => l end.
Definition is_booted (e : effect) : bool := match e with Booted => true | _ => false end.
Record moved (d d' : dom) (x : list effect) : Prop := Moved {
  m_groups : d_groups d' = d_groups d; m_mgr : d_mgr d' = d_mgr d; m_conf : map conf (d_ents d') = map conf (d_ents d); m_sing : d_sing d' = d_sing d; m_grand : d_grand d' = d_grand d;
  m_look : d_look d' = d_look d; m_white : d_white d' = d_white d; m_out : d_out d' = d_out d ++ x;
  m_level : d_level d' = if existsb is_booted x then raise (d_level d) else d_level d;
  m_keep : forall b, group_done b d = true -> group_done b d' = true;
  m_ended : forall b, In (Ended b) x -> group_done b d' = true;
  m_spawn : sp_ok x }.
Lemma moved_refl d : moved d d [].
Proof. constructor; auto using sp_nil; now rewrite app_nil_r. Qed.
Lemma moved_uniq d d' x : moved d d' x -> uniq d -> uniq d'.
Proof. intros M U. unfold uniq. rewrite (conf_ids _ _ (m_conf _ _ _ M)). auto. Qed.
Lemma moved_trans a b c x y : moved a b x -> moved b c y -> moved a c (x ++ y).
Proof.
  intros A B. constructor.
  - rewrite (m_groups _ _ _ B). apply A.
  - rewrite (m_mgr _ _ _ B). apply A.
  - rewrite (m_conf _ _ _ B). apply A.
  - rewrite (m_sing _ _ _ B). apply A.
  - rewrite (m_grand _ _ _ B). apply A.
  - rewrite (m_look _ _ _ B). apply A.
  - rewrite (m_white _ _ _ B). apply A.
  - rewrite (m_out _ _ _ B), (m_out _ _ _ A). now rewrite app_assoc.
  - rewrite (m_level _ _ _ B), (m_level _ _ _ A), existsb_app. destruct (existsb is_booted x), (existsb is_booted y); cbn; auto. destruct (d_level a); auto.
  - intros u H. apply (m_keep _ _ _ B), (m_keep _ _ _ A), H.
  - intros u J. apply in_app_or in J as [J|J]; [apply (m_keep _ _ _ B), (m_ended _ _ _ A u J)|apply (m_ended _ _ _ B u J)].
  - apply sp_app; [apply A|apply B].
Qed.
Lemma moved_tasks d l : moved d (set_tasks l d) [].
Proof. constructor; cbn; auto using sp_nil; now rewrite app_nil_r. Qed.
Lemma moved_ended d b : group_done b d = true -> moved d (say [Ended b] d) [Ended b].
Proof. intro H. constructor; cbn; auto. - intros u [E|[]]. injection E as <-. exact H. - apply sp_none. intros id p [E|[]]. discriminate. Qed.

Definition todo (l : list task) : list effect := flat_map (fun t => match t with TScale b => [Begun b; Ended b] | TBoot => [Booted] | TDone w => [Done w] end) l.
Definition plan (l : list task) : list effect := match l with TScale b :: r => Ended b :: todo r | l => todo l end.
Lemma todo_app a b : todo (a ++ b) = todo a ++ todo b.
Proof. apply flat_map_app. Qed.
(* what's first is a batch, that's started *)
Definition front_ok (l : list task) : Prop := match l with [] => True | TScale _ :: _ => True | _ => False end.

Lemma start_moved t d : uniq d -> exists x, moved d (fst (start t d)) x /\ d_tasks (fst (start t d)) = d_tasks d /\
  if snd (start t d) then marks x = todo [t] else exists b, t = TScale b /\ marks x = [Begun b].
Proof.
  intro U. destruct t as [b| |w]; cbn [start].
  - destruct (fold_inst_frame b (say [Begun b] d)) as (x & F & X); [exact U|]. set (d1 := fold_left instances_id b (say [Begun b] d)) in *.
    assert (M : moved d d1 (Begun b :: x)).
    { pose proof F as F'. destruct F' as (A1 & A2 & A3 & A4 & A5 & A6 & A7 & A8 & A9 & A10). constructor; auto.
      - rewrite A10. cbn. now rewrite <- app_assoc.
      - rewrite A1. cbn. destruct (existsb is_booted x) eqn:E; [|auto]. apply existsb_exists in E as (f & J & E). apply X in J as (id & _ & J). destruct f; cbn in *; try discriminate; contradiction.
      - intros u H. apply fold_inst_group; [exact U|]. now rewrite (group_done_eq d).
      - intros u [E|J]; [discriminate|]. apply X in J as (id & _ & J). contradiction.
      - now apply sp_begun. }
    assert (Mx : marks x = []). { assert (P : forall f, In f x -> mark f = false) by (intros f J; apply X in J as (id & _ & J); destruct f; cbn in *; auto; contradiction). clear - P. induction x as [|e x IH]; [auto|]. cbn. rewrite (P e (or_introl eq_refl)). apply IH. intros f J. apply P. cbn. auto. }
    assert (T : d_tasks d1 = d_tasks d) by (destruct F as (_ & _ & _ & _ & _ & _ & _ & _ & A9 & _); exact A9).
    destruct (group_done b d1) eqn:G; cbn [fst snd].
    + exists ((Begun b :: x) ++ [Ended b]). split; [apply (moved_trans d d1); [auto|now apply moved_ended]|]. split; [exact T|]. rewrite marks_app. cbn. unfold marks in Mx; now rewrite Mx.
    + exists (Begun b :: x). split; [auto|]. split; [exact T|]. exists b. cbn. unfold marks in Mx. now rewrite Mx.
  - exists [Booted]. split; [|split; reflexivity]. constructor; cbn; auto.
    + destruct (d_level d); reflexivity.
    + intros u [E|[]]; discriminate.
    + apply sp_none. intros id p [E|[]]. discriminate.
  - exists [Done w]. split; [|split; reflexivity]. constructor; cbn; auto.
    + intros u [E|[]]; discriminate.
    + apply sp_none. intros id p [E|[]]. discriminate.
Qed.
Lemma next_moved l : forall d, uniq d -> exists x, moved d (next l d) x /\ marks x ++ plan (d_tasks (next l d)) = todo l /\ front_ok (d_tasks (next l d)).
Proof.
  induction l as [|t r IH]; intros d U; cbn [next].
  - exists []. split; [apply moved_tasks|]. split; [reflexivity|exact Logic.I].
  - destruct (start_moved t d U) as (x & M & _ & K). destruct (start t d) as [d1 a]. cbn [fst snd] in *. destruct a.
    + destruct (IH d1 (moved_uniq _ _ _ M U)) as (y & N & P & Q). exists (x ++ y). split; [now apply (moved_trans d d1)|]. split; [|auto]. rewrite marks_app, K, <- app_assoc, P. cbn [todo flat_map]. now rewrite app_nil_r.
    + destruct K as (b & -> & K). exists (x ++ []). split; [apply (moved_trans d d1); [auto|apply moved_tasks]|]. rewrite app_nil_r, K. split; [reflexivity|exact Logic.I].
Qed.
Lemma dispatch_moved d : uniq d -> front_ok (d_tasks d) -> exists x, moved d (dispatch d) x /\ marks x ++ plan (d_tasks (dispatch d)) = plan (d_tasks d) /\ front_ok (d_tasks (dispatch d)).
Proof.
  intros U F. unfold dispatch. destruct (d_tasks d) as [|[b| |w] r] eqn:T; try contradiction.
  - exists []. rewrite T. split; [apply moved_refl|]. auto.
  - destruct (group_done b d) eqn:G.
    + destruct (next_moved r (say [Ended b] d)) as (x & M & P & Q); [exact U|]. exists ([Ended b] ++ x). split; [apply (moved_trans d (say [Ended b] d)); [now apply moved_ended|auto]|]. split; [|auto]. cbn [app marks filter mark plan]. change (filter mark x) with (marks x). cbn. now rewrite P.
    + exists []. rewrite T. split; [apply moved_refl|]. auto.
Qed.
Lemma andthen_moved d t : uniq d -> front_ok (d_tasks d) -> exists x, moved d (andthen d t) x /\ marks x ++ plan (d_tasks (andthen d t)) = plan (d_tasks d) ++ todo [t] /\ front_ok (d_tasks (andthen d t)).
Proof.
  intros U F. unfold andthen. destruct (d_tasks d) as [|u r] eqn:T.
  - destruct (start_moved t d U) as (x & M & E & K). destruct (start t d) as [d1 a]. cbn [fst snd] in *. rewrite T in E. destruct a.
    + exists x. split; [auto|]. rewrite E, K. split; [cbn [plan todo flat_map]; now rewrite !app_nil_r|exact Logic.I].
    + destruct K as (b & -> & K). exists (x ++ []). split; [apply (moved_trans d d1); [auto|apply moved_tasks]|]. rewrite app_nil_r, K. split; [reflexivity|exact Logic.I].
  - exists []. split; [apply moved_tasks|]. cbn [set_tasks d_tasks]. cbn [marks filter app]. destruct u as [b| |w]; try contradiction. split; [|exact Logic.I]. cbn [plan app]. now rewrite todo_app.
Qed.
Lemma fold_andthen ts : forall d, uniq d -> front_ok (d_tasks d) -> exists x, moved d (fold_left andthen ts d) x /\ marks x ++ plan (d_tasks (fold_left andthen ts d)) = plan (d_tasks d) ++ todo ts /\ front_ok (d_tasks (fold_left andthen ts d)).
Proof.
  induction ts as [|t ts IH]; intros d U F; cbn [fold_left].
  - exists []. split; [apply moved_refl|]. rewrite app_nil_r. auto.
  - destruct (andthen_moved d t U F) as (x & M & P & Q). destruct (IH _ (moved_uniq _ _ _ M U) Q) as (y & N & R & W). exists (x ++ y). split; [now apply (moved_trans d (andthen d t))|]. split; [|auto].
    rewrite marks_app, <- app_assoc, R, app_assoc, P, <- app_assoc. cbn [todo flat_map]. now rewrite app_nil_r.
Qed.
Lemma todo_scale o : todo (map TScale o) = in_turn o.
Proof. unfold todo, in_turn. induction o as [|b o IH]; cbn; [auto|]. now rewrite IH. Qed.

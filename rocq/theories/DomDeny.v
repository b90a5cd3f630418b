(* The domain manager: what a connect that's denied leaves. *)
From Coq Require Import ZArith List Bool Lia Permutation.
From Verif Require Import DomModel DomSpec DomBoot DomFrame DomMarks DomStep DomSeq DomTalk DomSing DomScale DomLook DomGrew DomProc DomPids DomKeep DomAsk DomCount.
Import ListNotations.
Local Open Scope Z_scope.

Definition deny (c : conn) (d : dom) : dom :=
  match server_of (c_pid c) d with
  | Some e => put (scale_to 1 (ent_drop (c_pid c) e)) d
  | None => match exec_of (c_pid c) d with Some e => put (scale_to 1 (ent_drop (c_pid c) e)) d | None => d end end.
Lemma denied_step d0 h o c d ev : reach d0 h -> step o (Connect c) d0 = Some (d, ev) -> In (Answer (c_pid c) (c_ipc c) false) ev -> ~ down h ->
  ev = [Answer (c_pid c) (c_ipc c) false] /\ d_ents d = d_ents (deny c (set_out [] (set_orc o d0))).
Proof.
  intros R St J ND. pose proof (proj2 (low_level d0 h R) ND) as L. pose proof (proj2 (step_sing _ _ _ _ _ St)) as A. cbn [ans_after] in A. pose proof (filter_one _ _ _ _ A J eq_refl) as Q. rewrite L in Q.
  destruct (c_sing c) as [s|] eqn:S; [|discriminate]. destruct (singleton s d0) as [x|] eqn:X; [|discriminate].
  unfold step in St. cbn [handle option_map] in St. unfold connect in St. cbn [d_level set_out set_orc] in St. rewrite L, S in St.
  assert (X' : singleton s (set_out [] (set_orc o d0)) = Some x) by exact X. unfold sm in *. rewrite X' in St. injection St as <- <-. cbv zeta. fold (deny c (set_out [] (set_orc o d0))).
  assert (O : d_out (deny c (set_out [] (set_orc o d0))) = []) by (unfold deny; destruct (server_of _ _); [reflexivity|destruct (exec_of _ _); reflexivity]).
  cbn [d_out d_ents say set_out]. rewrite O. auto.
Qed.
Lemma put_found (d : dom) p f e : uniq d -> NoDup (pids d) -> In f (d_ents d) -> In p (epids f) -> In e (d_ents d) ->
  let l := d_ents (put (scale_to 1 (ent_drop p f)) d) in
  (~ In p (epids e) -> In e l) /\ (In p (epids e) -> In (scale_to 1 (ent_drop p e)) l).
Proof.
  intros U N Jf If J. cbv zeta. assert (C : e_id (scale_to 1 (ent_drop p f)) = e_id f) by (destruct (scale_cute 1 (ent_drop p f)) as [C _]; unfold conf in C; cbn in C; congruence). split; intro I.
  - apply (in_put (scale_to 1 (ent_drop p f))); [auto|]. rewrite C. intro E. apply I. now rewrite (uniq_id (d_ents d) e f U J Jf E).
  - assert (E : e = f) by (apply (owner_one (d_ents d) e f p); auto). subst f. apply (in_put_it e); auto.
Qed.
Lemma deny_ents c d e : uniq d -> NoDup (pids d) -> In e (d_ents d) ->
  (~ In (c_pid c) (epids e) -> In e (d_ents (deny c d))) /\ (In (c_pid c) (epids e) -> In (scale_to 1 (ent_drop (c_pid c) e)) (d_ents (deny c d))).
Proof.
  intros U N J. unfold deny. destruct (server_of (c_pid c) d) as [f|] eqn:F.
  - apply server_of_in in F as (Jf & _ & Xf). apply put_found; auto. now apply exists_pid.
  - destruct (exec_of (c_pid c) d) as [f|] eqn:G.
    + apply exec_of_in in G as (Jf & _ & Xf). apply put_found; auto. now apply exists_pid.
    + split; [auto|]. intro I. exfalso. pose proof (server_iff _ _ _ U N J I) as A. pose proof (exec_iff _ _ _ U N J I) as B. rewrite F in A. rewrite G in B. destruct (e_kind e); discriminate.
Qed.
(* it's answered and nothing else is done at once; the process is forgotten by what it's an instance of, of which one is wanted from then on; nothing else is touched *)
Theorem denied_scales d0 h o c d ev : reach d0 h -> possible h o (Connect c) -> step o (Connect c) d0 = Some (d, ev) -> In (Answer (c_pid c) (c_ipc c) false) ev -> ~ down h ->
  ev = [Answer (c_pid c) (c_ipc c) false] /\
  forall e, In e (d_ents d0) ->
    ((forall x, In x (e_inst e) -> i_pid x <> Some (c_pid c)) -> In e (d_ents d)) /\
    ((exists x, In x (e_inst e) /\ i_pid x = Some (c_pid c)) ->
      exists e', In e' (d_ents d) /\ conf e' = conf e /\ wanted e' = 1%nat /\ forall y, In y (e_inst e') -> i_pid y <> Some (c_pid c)).
Proof.
  intros R _ St J ND. destruct (denied_step d0 h o c d ev R St J ND) as [A B]. split; [exact A|]. intros e Je.
  pose proof (k_rest _ _ (reach_kept _ _ R)) as (U & _ & _). destruct (reach_procs d0 h R) as (N & _).
  assert (IP : forall x : ent, In (c_pid c) (epids x) -> exists y, In y (e_inst x) /\ i_pid y = Some (c_pid c)).
  { intros x I. unfold epids in I. apply in_flat_map in I as (y & Jy & I). exists y. split; [auto|]. unfold pid_of in I. destruct (i_pid y); [destruct I as [->|[]]; auto|contradiction]. }
  assert (PI : forall (x : ent) y, In y (e_inst x) -> i_pid y = Some (c_pid c) -> In (c_pid c) (epids x)).
  { intros x y Jy P. unfold epids. apply in_flat_map. exists y. split; [auto|]. unfold pid_of. rewrite P. cbn. auto. }
  destruct (deny_ents c (set_out [] (set_orc o d0)) e U N Je) as [D1 D2]. rewrite B. split.
  - intro X. apply D1. intro I. apply IP in I as (y & Jy & P). exact (X y Jy P).
  - intros (x & Jx & P). pose proof (PI e x Jx P) as I. exists (scale_to 1 (ent_drop (c_pid c) e)). split; [auto|].
    destruct (scale 1 (ent_drop (c_pid c) e)) as [e1|] eqn:S; [|apply scale_undefined in S; lia].
    assert (T : scale_to 1 (ent_drop (c_pid c) e) = e1) by (unfold scale_to; now rewrite S). rewrite T. split; [rewrite (scale_conf' _ _ _ S); reflexivity|].
    split; [pose proof (scale_wanted _ _ _ S); lia|]. intros y Jy Py. pose proof (PI e1 y Jy Py) as I1.
    pose proof (drop_gone _ _ (pid_exists _ _ I)) as G. pose proof (occ_ents (d_ents d0) e (c_pid c) N Je) as O. destruct (scale_cute 1 (ent_drop (c_pid c) e)) as (_ & SC & _). specialize (SC (c_pid c)). rewrite T in SC.
    apply (count_occ_In Z.eq_dec) in I1. lia.
Qed.
Lemma conn_in p q l i : (occ (flat_map pid_of l) p <= 1)%nat -> In i l -> i_pid i = Some p -> In (Inst (Some p) (Some q) (i_want i)) (conn_inst p q l).
Proof.
  induction l as [|j l IH]; [contradiction|]. intros O J P. cbn [conn_inst]. destruct (has_pid p j) eqn:E.
  - assert (Q : i_pid j = Some p) by (unfold has_pid in E; destruct (i_pid j); [apply Z.eqb_eq in E; now subst|discriminate]). rewrite (occ_one (j :: l) p j i O (or_introl eq_refl) J Q P). now left.
  - destruct J as [->|J]; [unfold has_pid in E; rewrite P, Z.eqb_refl in E; discriminate|]. right. apply IH; auto. cbn [flat_map] in O. rewrite count_occ_app in O. lia.
Qed.
Lemma conn_wanting p q l : length (filter wanting (conn_inst p q l)) = length (filter wanting l).
Proof. induction l as [|i l IH]; [auto|]. cbn [conn_inst]. destruct (has_pid p i); [destruct i as [a b w]; destruct w; reflexivity|]. cbn [filter]. destruct (wanting i); cbn [length]; congruence. Qed.
Lemma conn_other p q l i : In i l -> i_pid i <> Some p -> In i (conn_inst p q l).
Proof.
  induction l as [|j l IH]; [contradiction|]. intros J P. cbn [conn_inst]. destruct (has_pid p j) eqn:E.
  - destruct J as [->|J]; [|now right]. exfalso. unfold has_pid in E. destruct (i_pid i); [apply Z.eqb_eq in E; congruence|discriminate].
  - destruct J as [->|J]; [now left|right; auto].
Qed.
(* when it's approved its instance has its device, if it's one of a server; each other instance with a process is as it was, and as many are wanted as before *)
Theorem approved_connected d0 h o c d ev e : reach d0 h -> possible h o (Connect c) -> step o (Connect c) d0 = Some (d, ev) -> In (Answer (c_pid c) (c_ipc c) true) ev -> In e (d_ents d0) ->
  exists e', In e' (d_ents d) /\ conf e' = conf e /\ wanted e' = wanted e /\
    (forall x, In x (e_inst e) -> i_pid x <> None -> i_pid x <> Some (c_pid c) \/ e_kind e = Exec -> In x (e_inst e')) /\
    (forall x, In x (e_inst e) -> i_pid x = Some (c_pid c) -> e_kind e = Server -> In (Inst (Some (c_pid c)) (Some (c_ipc c)) (i_want x)) (e_inst e')).
Proof.
  intros R _ St A Je. pose proof (k_rest _ _ (reach_kept _ _ R)) as (U & _ & _). destruct (reach_procs d0 h R) as (N & _).
  pose proof (proj2 (step_sing _ _ _ _ _ St)) as B. cbn [ans_after] in B. pose proof (filter_one _ _ _ _ B A eq_refl) as Q.
  pose proof (step_grows o (Connect c) d0 d ev U ltac:(discriminate) St) as G. pose proof (w_ents _ _ _ _ G) as W. cbn [ents_of] in W.
  destruct (rank Running <? rank (d_level d0)); [discriminate|]. destruct (match c_sing c with Some id => singleton id d0 | None => None end) as [y|] eqn:S; [destruct (c_sing c); [rewrite S in Q; discriminate|discriminate]|]. clear Q B.
  set (e1 := if existsb (has_pid (c_pid c)) (e_inst e) && match e_kind e with Server => true | Exec => false end then ent_conn (c_pid c) (c_ipc c) e else e).
  assert (J1 : In e1 match server_of (c_pid c) d0 with Some e => put_in (ent_conn (c_pid c) (c_ipc c) e) (d_ents d0) | None => d_ents d0 end).
  { unfold e1. destruct (existsb (has_pid (c_pid c)) (e_inst e)) eqn:X; cbn [andb].
    - rewrite (server_iff _ _ e U N Je (exists_pid _ _ X)). destruct (e_kind e); [|auto]. now apply (in_put_it e).
    - destruct (server_of (c_pid c) d0) as [f|] eqn:F; [|auto]. apply server_of_in in F as (Jf & _ & Xf). apply in_put; [auto|]. cbn. intro E. rewrite (uniq_id (d_ents d0) e f U Je Jf E) in X. congruence. }
  destruct (F2_left _ _ _ _ W J1) as (e' & J' & [C I]). exists e'. split; [auto|]. assert (C1 : conf e1 = conf e) by (unfold e1; destruct (_ && _); reflexivity). split; [congruence|].
  assert (W1 : wanted e1 = wanted e) by (unfold e1; destruct (_ && _); [apply conn_wanting|reflexivity]). split; [rewrite (egrown_wanted _ _ _ (conj C I)); auto|].
  assert (KEEP : forall x, In x (e_inst e1) -> i_pid x <> None -> In x (e_inst e')).
  { intros x Jx P. destruct (F2_left _ _ _ _ I Jx) as (x' & Jx' & [->|(P0 & _)]); [auto|contradiction]. }
  split.
  - intros x Jx P K. apply KEEP; [|auto]. unfold e1. destruct (existsb _ _); cbn [andb]; [|auto]. destruct (e_kind e) eqn:Ke; [|auto]. destruct K as [K|K]; [|discriminate]. apply conn_other; auto.
  - intros x Jx P K. apply KEEP; [|discriminate]. unfold e1. assert (X : existsb (has_pid (c_pid c)) (e_inst e) = true) by (apply existsb_exists; exists x; split; [auto|]; unfold has_pid; rewrite P; apply Z.eqb_refl). rewrite X, K. cbn [andb].
    apply conn_in; auto. exact (occ_ents (d_ents d0) e (c_pid c) N Je).
Qed.

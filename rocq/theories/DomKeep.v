(* The domain manager: what's known of the processes, in histories; and what's done when one ends. *)
From Coq Require Import ZArith List Bool Lia Permutation.
From Verif Require Import DomModel DomSpec DomBoot DomFrame DomMarks DomStep DomSeq DomScale DomTalk DomSing DomLook DomGrew DomProc DomPids.
Import ListNotations.
Local Open Scope Z_scope.

Lemma spawned_opids ev o p : incl (spawned ev) (opids o) -> In p (spawned ev) -> In (Some p) o.
Proof. intros I J. apply I in J. unfold opids in J. apply in_flat_map in J as ([x|] & J & K); [destruct K as [->|[]]; auto|contradiction]. Qed.
Lemma child_around id p h : child id p h -> around p h.
Proof. induction 1 as [h i ev J|h i ev C IH N]; [now apply around_spawned with id|now apply around_still]. Qed.
Lemma child_spawned id p h : child id p h -> In (Spawned id p) (effects h).
Proof. induction 1 as [h i ev J|h i ev C IH N]; rewrite effects_app, effects_one; apply in_or_app; auto. Qed.
Lemma begin_around d h p gs m es : reach d h -> In (Begin p gs m es) (inputs h) -> around p h.
Proof.
  intro R. induction R as [|d h o i d' ev R IH P S]; [contradiction|]. rewrite inputs_app. intro J. apply in_app_or in J as [J|[J|[]]].
  - apply around_still; [auto|]. intros ->. destruct P as [[_ P] _]. now apply (P gs m es).
  - cbn in J. subst i. apply around_begin.
Qed.
Definition known (d : dom) (h : history) : Prop := forall e p, In e (d_ents d) -> In p (epids e) -> child (e_id e) p h \/ exists gs es, In (Begin p gs (e_id e) es) (inputs h).
Lemma in_pids e l p : In e l -> In p (epids e) -> In p (flat_map epids l).
Proof. intros. apply in_flat_map. eauto. Qed.
Lemma F2_in {A B} (P : A -> B -> Prop) l m b : Forall2 P l m -> In b m -> exists a, In a l /\ P a b.
Proof. intro F. induction F as [|x y l m K F IH]; [contradiction|]. intros [<-|J]; [exists x; cbn; auto|]. destruct (IH J) as (a & J1 & J2). exists a. cbn. auto. Qed.
Lemma F2_in_l {A B} (P : A -> B -> Prop) l m a : Forall2 P l m -> In a l -> exists b, In b m /\ P a b.
Proof. intro F. induction F as [|x y l m K F IH]; [contradiction|]. intros [<-|J]; [exists y; cbn; auto|]. destruct (IH J) as (b & J1 & J2). exists b. cbn. auto. Qed.
Lemma egrown_pids x e e' p : egrown x e e' -> In p (epids e') -> In p (epids e) \/ In (Spawned (e_id e) p) x.
Proof.
  intros [C F] J. unfold epids in *. apply in_flat_map in J as (i' & J & K). destruct (F2_in _ _ _ _ F J) as (i & Ji & G). destruct G as [->|(_ & _ & [(q & -> & G)| ->])].
  - left. apply in_flat_map. eauto.
  - destruct K as [->|[]]. auto.
  - contradiction.
Qed.
Lemma egrown_wf x e e' : egrown x e e' -> wfe e -> wfe e'.
Proof.
  intros [C F] W i' J. destruct (F2_in _ _ _ _ F J) as (i & Ji & G). apply W in Ji. destruct Ji as [W1 W2]. destruct G as [->|(A & _ & [(q & -> & G)| ->])]; [split; auto|split; [discriminate|discriminate]|split; [auto|intros _; cbn; auto]].
Qed.
Lemma self_pids p m es : NoDup (map e_id es) -> (forall e, In e es -> is_self p m e \/ idle m e) -> (forall e q, In e es -> In q (epids e) -> q = p /\ e_id e = m) /\ (exists k, (k <= 1)%nat /\ Permutation (flat_map epids es) (repeat p k)) /\ (forall e, In e es -> wfe e).
Proof.
  intros N C. assert (A : forall e, In e es -> (e_id e = m /\ epids e = [p] /\ wfe e) \/ (e_id e <> m /\ epids e = [] /\ wfe e)).
  { intros e J. destruct (C e J) as [(E & _ & q & Q)|(E & Q)]; [left|right]; (split; [auto|]).
    - unfold epids, wfe. rewrite Q. split; [auto|]. intros i [<-|[]]. split; discriminate.
    - unfold epids, wfe. split; [|intros i K; rewrite (Q i K); split; [auto|auto]]. clear - Q. induction (e_inst e) as [|i l IH]; [auto|]. cbn. rewrite (Q i (or_introl eq_refl)). cbn. apply IH. intros; apply Q; cbn; auto. }
  split; [|split].
  - intros e q J K. destruct (A e J) as [(E & Q & _)|(E & Q & _)]; rewrite Q in K; [destruct K as [->|[]]; auto|contradiction].
  - clear C. induction es as [|e l IH]; [exists 0%nat; cbn; auto|]. cbn in N. inversion N as [|? ? X Y]; subst. destruct (A e (or_introl eq_refl)) as [(E & Q & _)|(E & Q & _)]; cbn [flat_map]; rewrite Q.
    + exists 1%nat. split; [auto|]. assert (Z0 : flat_map epids l = []); [|now rewrite Z0]. assert (NM : forall x, In x l -> e_id x <> m) by (intros x J K; apply X; rewrite E, <- K; now apply in_map).
      clear - A NM. induction l as [|x l IH]; [auto|]. cbn. destruct (A x) as [(E & _)|(_ & Q & _)]; [cbn; auto|exfalso; apply (NM x); cbn; auto|]. rewrite Q. apply IH; [intros y [<-|J]; apply A; cbn; auto|intros; apply NM; cbn; auto].
    + apply IH; auto. intros x J. apply A. cbn. auto.
  - intros e J. destruct (A e J) as [(_ & _ & W)|(_ & _ & W)]; auto.
Qed.
Lemma nodup_app_disjoint {A} (a b : list A) : NoDup a -> NoDup b -> (forall x, In x a -> ~ In x b) -> NoDup (a ++ b).
Proof. induction a as [|x a IH]; intros N M D; [auto|]. inversion N; subst. cbn. constructor; [intro J; apply in_app_or in J as [J|J]; [auto|apply (D x); cbn; auto]|apply IH; auto; intros y J; apply D; cbn; auto]. Qed.
Lemma nodup_app_l {A} (a b : list A) : NoDup (a ++ b) -> NoDup a.
Proof. induction a as [|x a IH]; [constructor|]. cbn. intro N. inversion N; subst. constructor; [intro J; apply H1; apply in_or_app; auto|auto]. Qed.
Lemma begin_inputs h p gs m es : begun p gs m es h -> In (Begin p gs m es) (inputs h).
Proof. intros (ev & r & ->). cbn. auto. Qed.
Lemma reach_procs d h : reach d h -> NoDup (pids d) /\ (forall e, In e (d_ents d) -> wfe e) /\ known d h.
Proof.
  intro R. induction R as [|d h o i d' ev R (N & W & K) P S]; [split; [constructor|split; intros e; contradiction]|].
  pose proof (k_rest _ _ (reach_kept _ _ R)) as (U & _ & _). assert (BN : forall p gs m es, i = Begin p gs m es -> NoDup (map e_id es)) by (intros p gs m es ->; destruct P as [(_ & _ & X & _) _]; auto).
  pose proof (step_grows o i d d' ev U BN S) as G. destruct P as (P1 & P2 & P3). pose proof (w_ents _ _ _ _ G) as G1. pose proof (w_orc _ _ _ _ G) as G2. pose proof (w_pids _ _ _ _ G) as G3.
  assert (SN : NoDup (spawned ev)) by (apply (nodup_app_l _ (opids (d_orc d'))); rewrite <- G2; exact P2). assert (SI : incl (spawned ev) (opids o)) by (rewrite G2; intros x J; apply in_or_app; auto).
  assert (SF : forall p, In p (spawned ev) -> ~ around p (h ++ [(i, [])])) by (intros p J; apply P3; now apply (spawned_opids ev)).
  assert (ND : NoDup (flat_map epids (ents_of i d)) -> (forall p, In p (flat_map epids (ents_of i d)) -> around p (h ++ [(i, [])])) -> NoDup (pids d')).
  { intros A B. apply (Permutation_NoDup (Permutation_sym G3)). apply nodup_app_disjoint; auto. intros x J J'. apply (SF x J'). auto. }
  assert (CASE : (exists p gs m es, i = Begin p gs m es) \/ forall p gs m es, i <> Begin p gs m es) by (destruct i; [left; eauto|right; discriminate..]). destruct CASE as [(p & gs & m & es & ->)|NB].
  - cbn [ents_of] in *. destruct P1 as (-> & C1 & C2 & C3 & C4 & C5). destruct (self_pids p m es C2 C4) as (A1 & (k & A2 & A3) & A4). split; [|split].
    + apply ND; [apply (Permutation_NoDup (Permutation_sym A3)); destruct k as [|[|k]]; [constructor|constructor; [auto|constructor]|lia]|]. intros q J. apply (Permutation_in _ A3) in J. apply repeat_spec in J. subst. apply around_begin.
    + intros e J. destruct (F2_in _ _ _ _ G1 J) as (e0 & J0 & E). apply (egrown_wf _ _ _ E). auto.
    + intros e q J Q. destruct (F2_in _ _ _ _ G1 J) as (e0 & J0 & E). assert (EI : e_id e = e_id e0) by (destruct E as [E _]; unfold conf in E; congruence). rewrite EI. destruct (egrown_pids _ _ _ _ E Q) as [Q'|Q'].
      * right. destruct (A1 e0 q J0 Q') as [-> ->]. exists gs, es. cbn. auto.
      * left. apply child_born. auto.
  - pose proof (ents_cut i d U NB) as CU. assert (N1 : NoDup (flat_map epids (ents_of i d))).
    { apply (NoDup_count_occ Z.eq_dec). intro x. pose proof (occ_flat_F2 _ _ x CU) as L. pose proof (proj1 (NoDup_count_occ Z.eq_dec (pids d)) N x) as M. unfold pids in M. lia. }
    assert (SUB : forall e' p, In e' (ents_of i d) -> In p (epids e') -> exists e, In e (d_ents d) /\ e_id e' = e_id e /\ In p (epids e) /\ i <> Exit p).
    { intros e' p J Q. destruct (F2_in _ _ _ _ CU J) as (e & Je & (C1 & C2 & C3)). exists e. split; [auto|]. split; [unfold conf in C1; congruence|]. split; [apply (count_occ_In Z.eq_dec); apply (count_occ_In Z.eq_dec) in Q; specialize (C2 p); lia|].
      intros ->. apply (exit_none p d U N). now apply (in_pids e'). }
    assert (KN : forall e' p, In e' (ents_of i d) -> In p (epids e') -> (child (e_id e') p h \/ exists gs es, In (Begin p gs (e_id e') es) (inputs h)) /\ i <> Exit p).
    { intros e' p J Q. destruct (SUB e' p J Q) as (e & J1 & J2 & J3 & J4). rewrite J2. split; [now apply K|auto]. }
    split; [|split].
    + apply ND; auto. intros p J. apply in_flat_map in J as (e' & J & Q). destruct (KN e' p J Q) as [[A|(gs & es & A)] B]; apply around_still; auto; [now apply (child_around (e_id e'))|now apply (begin_around d h p gs (e_id e') es)].
    + intros e J. destruct (F2_in _ _ _ _ G1 J) as (e0 & J0 & E). apply (egrown_wf _ _ _ E). destruct (F2_in _ _ _ _ CU J0) as (e1 & J1 & (_ & _ & C)). auto.
    + intros e q J Q. destruct (F2_in _ _ _ _ G1 J) as (e0 & J0 & E). assert (EI : e_id e = e_id e0) by (destruct E as [E _]; unfold conf in E; congruence). rewrite EI. destruct (egrown_pids _ _ _ _ E Q) as [Q'|Q'].
      * destruct (KN e0 q J0 Q') as [[A|(gs & es & A)] B]; [left; now apply child_still|right; exists gs, es; rewrite inputs_app; apply in_or_app; auto].
      * left. apply child_born. auto.
Qed.
(* after it has ended, it's no instance, unless it's given to a new process at once *)
Theorem exit_forgotten d h p ev e : reach d (h ++ [(Exit p, ev)]) -> In e (d_ents d) -> (exists i, In i (e_inst e) /\ i_pid i = Some p) -> In (Spawned (e_id e) p) ev.
Proof.
  intros R J (i & Ji & Pi). apply reach_last in R as (d0 & o & R0 & P & S). pose proof (k_rest _ _ (reach_kept _ _ R0)) as (U & _ & _). pose proof (step_grows o (Exit p) d0 d ev U ltac:(discriminate) S) as G.
  destruct (F2_in _ _ _ _ (w_ents _ _ _ _ G) J) as (e0 & J0 & E). assert (EI : e_id e = e_id e0) by (destruct E as [E _]; unfold conf in E; congruence). rewrite EI. destruct (egrown_pids _ _ _ p E) as [Q|Q]; [|exfalso|auto].
  - unfold epids. apply in_flat_map. exists i. split; [auto|]. unfold pid_of. rewrite Pi. cbn. auto.
  - destruct (reach_procs d0 h R0) as (N & _). apply (exit_none p d0 U N). now apply (in_pids e0).
Qed.
(* each process that's an instance is a child, or the manager itself; and it is of one instance *)
Theorem instances_children d h e i p : reach d h -> In e (d_ents d) -> In i (e_inst e) -> i_pid i = Some p -> child (e_id e) p h \/ exists gs es, In (Begin p gs (e_id e) es) (inputs h).
Proof. intros R J Ji Pi. destruct (reach_procs d h R) as (_ & _ & K). apply K; auto. unfold epids. apply in_flat_map. exists i. split; [auto|]. unfold pid_of. rewrite Pi. cbn. auto. Qed.

(* ---- it's restarted ---- *)
Lemma scale_out_some e d i : In i (e_inst e) -> is_st (e_kind e) SScaleOut i = true -> (e_kind e = Server -> e_on e = true) -> exists x y, d_out (scale_out e d) = d_out d ++ x :: y /\ (x = Failed (e_id e) \/ exists p, x = Spawned (e_id e) p).
Proof.
  intros J H E. unfold scale_out. assert (X : match e_kind e with Server => e_on e | Exec => true end = true) by (destruct (e_kind e); auto). rewrite X. destruct (subrange _ _) as [[a r] c] eqn:F. apply subrange_app in F as (_ & _ & _ & F). destruct r as [|j r].
  - rewrite (F eq_refl i J) in H. discriminate.
  - cbn [spawns]. destruct (d_orc d) as [|[q|] o].
    + destruct (spawns _ r _) as [[u v] w]. cbn. eauto.
    + destruct (spawns _ r _) as [[u v] w]. cbn. eauto 6.
    + destruct (spawns _ r _) as [[u v] w]. cbn. eauto.
Qed.
Lemma drop_restart p l q : In (Inst (Some p) q PRun) l -> (forall i, In i l -> has_pid p i = true -> i = Inst (Some p) q PRun) -> In (Inst None None PRun) (drop true p l).
Proof.
  intros J H. induction l as [|i l IH]; [contradiction|]. cbn [drop]. destruct (has_pid p i) eqn:E.
  - rewrite (H i (or_introl eq_refl) E). cbn. auto.
  - destruct J as [->|J]; [cbn in E; rewrite Z.eqb_refl in E; discriminate|]. right. apply IH; auto. intros k K. apply H. cbn. auto.
Qed.
Lemma occ_one l p i j : (occ (flat_map pid_of l) p <= 1)%nat -> In i l -> In j l -> i_pid i = Some p -> i_pid j = Some p -> i = j.
Proof.
  induction l as [|x l IH]; [contradiction|]. cbn [flat_map]. rewrite count_occ_app. intros O Ji Jj Pi Pj. assert (A : forall y, In y l -> i_pid y = Some p -> (1 <= occ (flat_map pid_of l) p)%nat).
  { intros y J Q. apply (count_occ_In Z.eq_dec). apply in_flat_map. exists y. split; [auto|]. unfold pid_of. rewrite Q. cbn. auto. }
  assert (B : forall y, y = x -> i_pid y = Some p -> occ (pid_of x) p = 1%nat) by (intros y <- Q; unfold pid_of; rewrite Q; cbn; destruct (Z.eq_dec p p); [auto|contradiction]).
  destruct Ji as [Ji|Ji], Jj as [Jj|Jj].
  - congruence.
  - symmetry in Ji. specialize (A j Jj Pj). specialize (B i Ji Pi). lia.
  - symmetry in Jj. specialize (A i Ji Pi). specialize (B j Jj Pj). lia.
  - apply IH; auto. lia.
Qed.
Lemma occ_ents es e p : NoDup (flat_map epids es) -> In e es -> (occ (epids e) p <= 1)%nat.
Proof. intros N J. pose proof (proj1 (NoDup_count_occ Z.eq_dec _) N p) as O. apply in_split in J as (a & b & ->). rewrite flat_map_app in O. cbn [flat_map] in O. rewrite !count_occ_app in O. lia. Qed.
Lemma owner_one es e f p : NoDup (flat_map epids es) -> In e es -> In f es -> In p (epids e) -> In p (epids f) -> e = f.
Proof.
  induction es as [|x l IH]; [contradiction|]. cbn [flat_map]. intros N Je Jf Pe Pf. assert (D : forall y, In y l -> In p (epids y) -> In p (epids x) -> False).
  { intros y J Q X. pose proof (proj1 (NoDup_count_occ Z.eq_dec _) N p) as O. rewrite count_occ_app in O. assert (A : In p (flat_map epids l)) by now apply (in_pids y). apply (count_occ_In Z.eq_dec) in A. apply (count_occ_In Z.eq_dec) in X. lia. }
  assert (N' : NoDup (flat_map epids l)) by (apply (NoDup_count_occ Z.eq_dec); intro q; pose proof (proj1 (NoDup_count_occ Z.eq_dec _) N q) as O; rewrite count_occ_app in O; lia).
  destruct Je as [<-|Je], Jf as [<-|Jf]; auto; exfalso; eauto.
Qed.
Theorem exit_restarts d d0 h p ev e q : reach d (h ++ [(Exit p, ev)]) -> reach d0 h -> (exists o, step o (Exit p) d0 = Some (d, ev)) -> In Booted (effects h) -> ~ down h ->
  In e (d_ents d0) -> e_restart e = true -> (e_kind e = Server -> e_on e = true) -> In (Inst (Some p) q PRun) (e_inst e) -> In (Failed (e_id e)) ev \/ exists p', In (Spawned (e_id e) p') ev.
Proof.
  intros _ R (o & S) BT ND J RS ON I. pose proof (reach_kept _ _ R) as [(U & FO & _) _ L]. destruct (reach_procs d0 h R) as (N & _). assert (L' : d_level d0 = Running) by (destruct (d_level d0); tauto).
  assert (PE : In p (epids e)) by (unfold epids; apply in_flat_map; eexists; split; [exact I|cbn; auto]). assert (EX : existsb (has_pid p) (e_inst e) = true) by now apply pid_exists.
  unfold step in S. set (d1 := set_out [] (set_orc o d0)) in *. cbn [handle option_map] in S. injection S as _ <-. unfold exit.
  assert (RM : snd (remove p d1) = Some (e_id e) /\ d_ents (fst (remove p d1)) = put_in (ent_drop p e) (d_ents d0)).
  { unfold remove. cbv zeta. set (d2 := set_sing _ _). change (d_level d1) with (d_level d0). rewrite L'. destruct (e_kind e) eqn:KE.
    - assert (SV : server_of p d2 = Some e). { change (server_of p d2) with (server_of p d0). destruct (server_of p d0) as [f|] eqn:F; [|exfalso; apply (find_none _ _ F) in J; rewrite KE in J; congruence]. f_equal. apply server_of_in in F as (Jf & _ & Xf). apply (owner_one (d_ents d0) f e p); auto. now apply exists_pid. }
      rewrite SV, RS. cbn. auto.
    - assert (SV : server_of p d2 = None). { change (server_of p d2) with (server_of p d0). destruct (server_of p d0) as [f|] eqn:F; [|auto]. exfalso. apply server_of_in in F as (Jf & Kf & Xf). assert (Q : f = e) by (apply (owner_one (d_ents d0) f e p); auto; now apply exists_pid). congruence. }
      assert (SX : exec_of p d2 = Some e). { change (exec_of p d2) with (exec_of p d0). destruct (exec_of p d0) as [f|] eqn:F; [|exfalso; apply (find_none _ _ F) in J; rewrite KE in J; congruence]. f_equal. apply exec_of_in in F as (Jf & _ & Xf). apply (owner_one (d_ents d0) f e p); auto. now apply exists_pid. }
      rewrite SV, SX, RS. cbn. auto. }
  pose proof (remove_books p d1) as (_ & _ & RO & _). pose proof (pre_remove p d1 U) as PR. destruct (remove p d1) as [d2 r]. cbn [fst snd] in *. destruct RM as [-> RE]. set (e1 := ent_drop p e) in *.
  assert (U2 : uniq d2) by now apply (pre_uniq d1 _ []). assert (J1 : In e1 (d_ents d2)). { rewrite RE. unfold put_in. apply in_map_iff. exists e. split; [cbn; now rewrite Z.eqb_refl|auto]. }
  assert (EN : entity (e_id e) d2 = Some e1) by (change (e_id e) with (e_id e1); now apply in_entity).
  assert (DI : In (Inst None None PRun) (e_inst e1)). { unfold e1, ent_drop. cbn [with_inst e_inst]. rewrite RS. apply (drop_restart p _ q); auto. intros i Ji Hi. assert (Pi : i_pid i = Some p) by (unfold has_pid in Hi; destruct (i_pid i); [apply Z.eqb_eq in Hi; now subst|discriminate]).
    apply (occ_one (e_inst e) p); auto. apply (occ_ents (d_ents d0) e p N J). }
  unfold instances_id. rewrite EN. unfold instances. destruct (grew_in e1 d2) as (y & Gy). destruct (scale_out_some e1 (scale_in e1 d2) (Inst None None PRun) DI) as (x & z & XO & X); [unfold is_st, state_of; cbn; destruct (e_kind e); reflexivity|exact ON|].
  assert (UO : uniq (scale_out e1 (scale_in e1 d2))). { destruct (scale_in_frame e1 d2) as (x' & _ & _ & F & _). destruct (grew_scale_out e1 (scale_in e1 d2)) as (w & Gw); [apply (grew_uniq _ _ _ Gy U2)|now rewrite F|]. apply (grew_uniq _ _ _ Gw), (grew_uniq _ _ _ Gy), U2. }
  destruct (grew_dispatch _ UO) as (w & Gw). rewrite (g_out _ _ _ Gw), XO, <- app_assoc. assert (JX : In x (d_out (scale_in e1 d2) ++ (x :: z) ++ w)) by (apply in_or_app; right; cbn; auto).
  destruct X as [->|(p' & ->)]; [left; exact JX|right; exists p'; exact JX].
Qed.

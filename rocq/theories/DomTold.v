(* The domain manager: when a batch begins, the processes of it that are to end are told. *)
From Coq Require Import ZArith List Bool Lia Permutation.
From Verif Require Import DomModel DomSpec DomBoot DomFrame DomMarks DomStep DomSeq DomScale DomTalk DomSing DomLook DomGrew DomProc DomPids DomKeep DomOpen DomDown.
Import ListNotations.
Local Open Scope Z_scope.

(* ---- the instances that are to end are last ---- *)
Definition calm (i : inst) : Prop := i_want i = PRun \/ i_want i = PErr \/ (i_want i = PExit /\ i_pid i = None).
Definition laid (k : kind) (l : list inst) : Prop := exists a r, l = a ++ r /\ (forall i, In i a -> calm i) /\ forall i, In i r -> going k i.
Definition lay (e : ent) : Prop := e_on e = true -> laid (e_kind e) (e_inst e).
Lemma calm_not_in k i : calm i -> is_st k SScaleIn i = false.
Proof. unfold calm, is_st, state_of. destruct i as [p q w]. cbn. intros [->|[->|[-> ->]]]; destruct k; auto; destruct p; auto; destruct q; auto. Qed.
Lemma going_in k i : going k i -> is_st k SScaleIn i = true.
Proof. unfold going, has_process, is_st, state_of. destruct i as [p q w]. cbn. intros [-> H]. destruct k; [destruct H as (a & b & -> & ->)|destruct H as (a & ->)]; reflexivity. Qed.
Lemma calm_going k i : calm i -> going k i -> False.
Proof. intros C G. apply (calm_not_in k) in C. apply going_in in G. congruence. Qed.
Lemma in_going k i : i_want i = PExit -> is_st k SExit i = false -> going k i.
Proof. intros W H. split; [auto|]. apply exit_has; auto. now rewrite H. Qed.
Lemma lay_scale n e e' : scale n e = Some e' -> lay e'.
Proof.
  intros S On. pose proof (scale_conf' n e e' S) as C. assert (On0 : e_on e = true) by (unfold conf in C; congruence). assert (K : e_kind e' = e_kind e) by (unfold conf in C; congruence). rewrite K.
  unfold scale in S. rewrite On0 in S. destruct (_ <? n); [injection S as <-|destruct (n <? 0); [discriminate|injection S as <-]]; cbn [with_inst e_inst].
  - match goal with |- laid _ ?l => exists l, [] end. split; [now rewrite app_nil_r|]. split; [|contradiction]. intros i J. apply in_map_iff in J as (x & <- & _). left. reflexivity.
  - eexists. eexists. split; [reflexivity|]. split.
    + intros i J. apply in_map_iff in J as (x & <- & _). left. reflexivity.
    + intros i J. apply filter_In in J as [J N]. apply in_map_iff in J as (x & <- & _). apply in_going; [reflexivity|]. now apply negb_true_iff in N.
Qed.
Lemma lay_scale_to n e : lay e -> lay (scale_to n e).
Proof. intro L. unfold scale_to. destruct (scale n e) eqn:S; [now apply (lay_scale n e)|auto]. Qed.
Lemma laid_cons k i l : calm i -> laid k l -> laid k (i :: l).
Proof. intros C (a & r & -> & A & R). exists (i :: a), r. split; [auto|]. split; [|auto]. intros j [<-|J]; auto. Qed.
Lemma laid_inv k i l : laid k (i :: l) -> (calm i /\ laid k l) \/ (going k i /\ forall j, In j l -> going k j).
Proof.
  intros (a & r & E & A & R). destruct a as [|y a]; cbn in E.
  - destruct r as [|z r]; [discriminate|]. injection E as -> ->. right. split; [apply R; now left|]. intros j J. apply R. now right.
  - injection E as -> ->. left. split; [apply A; now left|]. exists a, r. split; [auto|]. split; [|auto]. intros j J. apply A. now right.
Qed.
Lemma laid_all k l : (forall j, In j l -> going k j) -> laid k l.
Proof. intro H. exists [], l. split; [auto|]. split; [contradiction|auto]. Qed.
Lemma lay_drop p e : lay e -> lay (ent_drop p e).
Proof.
  intros L On. specialize (L On). unfold ent_drop in *. cbn [with_inst e_inst e_kind] in *. revert L. generalize (e_kind e) as k, (e_restart e) as rs. intros k rs. induction (e_inst e) as [|i l IH]; intro L; cbn [drop]; [exact L|].
  apply laid_inv in L as [[C L]|[C L]].
  - destruct (has_pid p i) eqn:P; [|apply laid_cons; auto]. destruct C as [C|[C|[C N]]]; rewrite C; auto.
    + apply laid_cons; [|auto]. destruct rs; [left; reflexivity|right; right; auto].
    + apply laid_cons; [|auto]. right. left. reflexivity.
  - destruct (has_pid p i) eqn:P.
    + destruct C as [C _]. rewrite C. now apply laid_all.
    + assert (D : forall j, In j (drop rs p l) -> going k j).
      { clear - L. induction l as [|y l IH]; cbn [drop]; [contradiction|]. destruct (has_pid p y); [|intros j [<-|J]; [apply L; now left|apply IH; auto; intros z Z; apply L; now right]]. destruct (L y (or_introl eq_refl)) as [W _]. rewrite W. intros j J. apply L. now right. }
      apply laid_all. intros j [<-|J]; auto.
Qed.
Lemma lay_conn p q e : lay e -> lay (ent_conn p q e).
Proof.
  intros L On. specialize (L On). unfold ent_conn in *. cbn [with_inst e_inst e_kind] in *. revert L. generalize (e_kind e) as k. intros k. induction (e_inst e) as [|i l IH]; intro L; cbn [conn_inst]; [exact L|].
  apply laid_inv in L as [[C L]|[C L]].
  - destruct (has_pid p i) eqn:P; [|apply laid_cons; auto]. apply laid_cons; [|auto]. destruct C as [C|[C|[C N]]]; [left; auto|right; left; auto|]. unfold has_pid in P. rewrite N in P. discriminate.
  - assert (D : forall l, (forall j, In j l -> going k j) -> forall j, In j (conn_inst p q l) -> going k j).
    { clear. intros l L. induction l as [|y l IH]; cbn [conn_inst]; [contradiction|]. destruct (has_pid p y) eqn:P.
      - intros j [<-|J]; [|apply L; now right]. destruct (L y (or_introl eq_refl)) as [W _]. split; [auto|]. destruct k; cbn; eauto.
      - intros j [<-|J]; [apply L; now left|apply IH; auto; intros z Z; apply L; now right]. }
    apply laid_all. apply (D (i :: l)). intros j [<-|J]; auto.
Qed.
Lemma laid_grown x id k l l' : Forall2 (grown x id) l l' -> laid k l -> laid k l'.
Proof.
  intros F (a & r & -> & A & R). apply Forall2_app_inv_l in F as (a' & r' & F1 & F2 & ->). rewrite (grown_going x id k r r' R F2). exists a', r. split; [auto|]. split; [|auto].
  intros i J. destruct (F2_in _ _ _ _ F1 J) as (i0 & J0 & [->|(_ & _ & [(p & -> & _)| ->])]); [auto|left; reflexivity|right; left; reflexivity].
Qed.
Lemma lay_grown x e e' : egrown x e e' -> lay e -> lay e'.
Proof. intros [C F] L On. unfold conf in C. assert (E : e_on e = true /\ e_kind e' = e_kind e) by (split; congruence). destruct E as [E1 E2]. rewrite E2. apply (laid_grown x (e_id e) _ (e_inst e)); auto. Qed.

(* ---- they are told ---- *)
Definition lays (d : dom) : Prop := forall e, In e (d_ents d) -> lay e.
Definition tells_of (P : Z -> Prop) (d' : dom) (x : list effect) (y : list self) : Prop := forall e i, In e (d_ents d') -> P (e_id e) -> e_on e = true -> In i (e_inst e) -> going (e_kind e) i -> told (e_kind e) i x y.
Lemma told_more k i x y x' y' : incl x x' -> incl y y' -> told k i x y -> told k i x' y'.
Proof. intros X Y. destruct k; [intros (p & q & A & B & [(s & l & C & D)|(l & C & D)]); exists p, q; (split; [auto|split; [auto|]]); [left; exists s, l; auto|right; exists l; auto]|intros (p & A & B); exists p; auto]. Qed.
Record ph (d d' : dom) (x : list effect) (y : list self) : Prop := Ph {
  ph_out : d_out d' = d_out d ++ x; ph_self : d_self d' = d_self d ++ y; ph_ents : Forall2 (egrown x) (d_ents d) (d_ents d'); ph_told : lays d -> forall b, In (Begun b) x -> tells_of (fun id => In id b) d' x y }.
Lemma ph_lays d d' x y : ph d d' x y -> lays d -> lays d'.
Proof. intros P L e J. destruct (F2_in _ _ _ _ (ph_ents _ _ _ _ P) J) as (e0 & J0 & G). apply (lay_grown _ _ _ G). auto. Qed.
Lemma ph_refl d : ph d d [] [].
Proof. constructor; [now rewrite app_nil_r|now rewrite app_nil_r|apply Forall2_same; intros; apply egrown_refl|contradiction]. Qed.
Lemma tells_grown P d d' x y x' y' z : Forall2 (egrown z) (d_ents d) (d_ents d') -> incl x x' -> incl y y' -> tells_of P d x y -> tells_of P d' x' y'.
Proof.
  intros F X Y T e i J K On Ji G. destruct (F2_in _ _ _ _ F J) as (e0 & J0 & C & Fi). assert (E : e_id e = e_id e0 /\ e_kind e = e_kind e0 /\ e_on e = e_on e0) by (unfold conf in C; repeat split; congruence). destruct E as (E1 & E2 & E3). rewrite E1 in K. rewrite E2 in *. rewrite E3 in On.
  apply (told_more _ _ x y); auto. apply (T e0); auto. destruct (F2_in _ _ _ _ Fi Ji) as (i0 & Ji0 & [->|(_ & _ & [(p & -> & _)| ->])]); [auto|destruct G; discriminate|destruct G; discriminate].
Qed.
Lemma ph_trans a b c x y u v : ph a b x y -> ph b c u v -> ph a c (x ++ u) (y ++ v).
Proof.
  intros P Q. pose proof P as [P1 P2 P3 P4]. pose proof Q as [Q1 Q2 Q3 Q4]. constructor.
  - now rewrite Q1, P1, app_assoc.
  - now rewrite Q2, P2, app_assoc.
  - apply (Forall2_trans' (egrown x) (egrown u) _ _ (d_ents b)); auto. intros p q r. apply egrown_trans.
  - intros L t J. apply in_app_or in J as [J|J].
    + apply (tells_grown _ b c x y _ _ u); auto; [apply incl_appl, incl_refl|apply incl_appl, incl_refl].
    + specialize (Q4 (ph_lays _ _ _ _ P L) t J). intros e i A B C D E. apply (told_more _ _ u v); [apply incl_appr, incl_refl|apply incl_appr, incl_refl|]. now apply (Q4 e i).
Qed.
Lemma ph_quiet d d' x y : d_out d' = d_out d ++ x -> d_self d' = d_self d ++ y -> Forall2 (egrown x) (d_ents d) (d_ents d') -> (forall b, ~ In (Begun b) x) -> ph d d' x y.
Proof. intros A B C N. constructor; auto. intros _ b J. exfalso. now apply (N b). Qed.
Lemma ph_same d d' x : d_out d' = d_out d ++ x -> d_self d' = d_self d -> d_ents d' = d_ents d -> (forall b, ~ In (Begun b) x) -> ph d d' x [].
Proof. intros A B C N. apply ph_quiet; auto; [now rewrite app_nil_r|rewrite C; apply Forall2_same; intros; apply egrown_refl]. Qed.
Lemma span_all {A} (p : A -> bool) a r : (forall x, In x a -> p x = true) -> match r with [] => True | x :: _ => p x = false end -> span p (a ++ r) = (a, r).
Proof.
  intros H R. induction a as [|x a IH]; cbn [app span].
  - destruct r as [|y r]; [auto|]. cbn. now rewrite R.
  - rewrite (H x (or_introl eq_refl)), IH by (intros; apply H; now right). auto.
Qed.
Lemma subrange_laid k a r : (forall i, In i a -> calm i) -> (forall i, In i r -> going k i) -> subrange (is_st k SScaleIn) (a ++ r) = (a, r, []).
Proof.
  intros A R. unfold subrange. rewrite (span_all _ a r).
  - pose proof (span_all (is_st k SScaleIn) r []) as Q. rewrite app_nil_r in Q. rewrite Q; [auto| |exact Logic.I]. intros x J. now apply going_in, R.
  - intros x J. now rewrite (calm_not_in k x (A x J)).
  - destruct r as [|z r]; [exact Logic.I|]. now rewrite (going_in k z (R z (or_introl eq_refl))).
Qed.
Lemma in_tells e d : exists x y, d_out (scale_in e d) = d_out d ++ x /\ d_self (scale_in e d) = d_self d ++ y /\ d_ents (scale_in e d) = d_ents d /\ (forall b, ~ In (Begun b) x) /\
  (lay e -> e_on e = true -> forall i, In i (e_inst e) -> going (e_kind e) i -> told (e_kind e) i x y).
Proof.
  unfold scale_in. destruct (subrange _ _) as [[a r] c] eqn:S. assert (T : lay e -> e_on e = true -> forall i, In i (e_inst e) -> going (e_kind e) i -> In i r).
  { intros L On i J G. destruct (L On) as (a' & r' & E & A & R). rewrite E, (subrange_laid _ a' r' A R) in S. injection S as <- <- <-. rewrite E in J. apply in_app_or in J as [J|J]; [exfalso; apply (calm_going _ _ (A i J) G)|auto]. }
  clear S. destruct r as [|z r].
  - exists [], []. rewrite !app_nil_r. split; [auto|]. split; [auto|]. split; [auto|]. split; [auto|]. intros L On i J G. exfalso. apply (T L On i J G).
  - set (rr := z :: r) in *. destruct (e_kind e).
    + unfold shut. destruct (singleton sm d) as [s|].
      * eexists. exists []. split; [reflexivity|]. split; [cbn; now rewrite app_nil_r|]. split; [reflexivity|]. split; [intros b [K|[]]; discriminate|]. intros L On i J G. specialize (T L On i J G). destruct G as [_ (p & q & P & Q)]. exists p, q. split; [auto|]. split; [auto|]. left. eexists. eexists. split; [left; reflexivity|].
        apply in_flat_map. exists i. split; [now apply -> in_rev|]. unfold handle_of. rewrite P, Q. now left.
      * exists []. eexists. split; [cbn; now rewrite app_nil_r|]. split; [reflexivity|]. split; [reflexivity|]. split; [auto|]. intros L On i J G. specialize (T L On i J G). destruct G as [_ (p & q & P & Q)]. exists p, q. split; [auto|]. split; [auto|]. right. eexists. split; [left; reflexivity|].
        apply in_map_iff. exists (p, q). split; [reflexivity|]. apply in_flat_map. exists i. split; [now apply -> in_rev|]. unfold handle_of. rewrite P, Q. now left.
    + eexists. exists []. split; [reflexivity|]. split; [cbn; now rewrite app_nil_r|]. split; [reflexivity|]. split; [intros b K; apply in_map_iff in K as (? & K & _); discriminate|]. intros L On i J G. specialize (T L On i J G). destruct G as [_ (p & P)]. exists p. split; [auto|].
      apply in_map. apply in_flat_map. exists i. split; [now apply -> in_rev|]. unfold pid_of. rewrite P. now left.
Qed.
Lemma out_self e d : exists y, d_self (scale_out e d) = d_self d ++ y.
Proof.
  unfold scale_out. destruct (match e_kind e with Server => e_on e | Exec => true end); [|exists []; now rewrite app_nil_r]. destruct (subrange _ _) as [[a r] c]. destruct r; [exists []; now rewrite app_nil_r|]. destruct (spawns _ _ _) as [[l' ev] o]. eexists. reflexivity.
Qed.
Lemma id_tells id d : uniq d -> exists x y, ph d (instances_id d id) x y /\ (forall b, ~ In (Begun b) x) /\ (lays d -> tells_of (fun i => i = id) (instances_id d id) x y).
Proof.
  intro U. unfold instances_id. destruct (entity id d) as [e|] eqn:E.
  - apply entity_in in E as [J Ei]. unfold instances. destruct (in_tells e d) as (x & y & A1 & A2 & A3 & A4 & A5). assert (U1 : uniq (scale_in e d)) by (unfold uniq; rewrite A3; exact U).
    destruct (grew_scale_out e (scale_in e d) U1) as (u & G); [now rewrite A3|]. destruct (scale_out_frame e (scale_in e d) U1) as (u' & F & Fu & _); [now rewrite A3|]. destruct (out_self e (scale_in e d)) as (v & V).
    assert (Eu : u' = u) by (apply (app_inv_head (d_out (scale_in e d))); rewrite <- (g_out _ _ _ G); symmetry; apply F). subst u'.
    assert (P1 : ph d (scale_in e d) x y) by (apply ph_quiet; auto; rewrite A3; apply Forall2_same; intros; apply egrown_refl).
    assert (NB : forall b, ~ In (Begun b) u) by (intros b K; apply Fu in K; exact K). assert (P2 : ph (scale_in e d) (scale_out e (scale_in e d)) u v) by (apply ph_quiet; auto; [apply G|apply G]).
    exists (x ++ u), (y ++ v). split; [now apply (ph_trans d (scale_in e d))|]. split; [intros b K; apply in_app_or in K as [K|K]; [now apply (A4 b)|now apply (NB b)]|].
    intros L. apply (tells_grown _ (scale_in e d) _ x y _ _ u); [apply G|apply incl_appl, incl_refl|apply incl_appl, incl_refl|]. intros e1 i J1 E1 On Ji Gi. rewrite A3 in J1. assert (Q : e1 = e) by (apply (uniq_id (d_ents d)); auto; congruence). subst e1. apply A5; auto.
  - exists [], []. split; [apply ph_refl|]. split; [auto|]. intros L e i J Q. exfalso. subst id. rewrite (in_entity d e U J) in E. discriminate.
Qed.
Lemma fold_tells ids : forall d, uniq d -> exists x y, ph d (fold_left instances_id ids d) x y /\ (forall b, ~ In (Begun b) x) /\ (lays d -> tells_of (fun i => In i ids) (fold_left instances_id ids d) x y).
Proof.
  induction ids as [|id r IH]; intros d U; cbn [fold_left].
  - exists [], []. split; [apply ph_refl|]. split; [auto|]. intros L e i J [].
  - destruct (id_tells id d U) as (x & y & P & N & T). destruct (grew_id id d U) as (z & G). destruct (IH _ (grew_uniq _ _ _ G U)) as (u & v & Q & N2 & T2). exists (x ++ u), (y ++ v). split; [now apply (ph_trans d (instances_id d id))|].
    split; [intros b K; apply in_app_or in K as [K|K]; [now apply (N b)|now apply (N2 b)]|]. intros L e i J K On Ji Gi. destruct K as [K|K].
    + apply (tells_grown (fun i => i = id) (instances_id d id) _ x y _ _ u (ph_ents _ _ _ _ Q)) with (e := e); auto; [apply incl_appl, incl_refl|apply incl_appl, incl_refl].
    + apply (told_more _ _ u v); [apply incl_appr, incl_refl|apply incl_appr, incl_refl|]. apply (T2 (ph_lays _ _ _ _ P L) e i); auto.
Qed.
Lemma ph_say e d : (forall b, e <> Begun b) -> ph d (say [e] d) [e] [].
Proof. intro N. apply ph_same; auto. intros b [K|[]]. now apply (N b). Qed.
Lemma ph_tasks l d : ph d (set_tasks l d) [] [].
Proof. apply ph_same; auto. cbn. now rewrite app_nil_r. Qed.
Lemma ph_start t d : uniq d -> exists x y, ph d (fst (start t d)) x y.
Proof.
  intro U. destruct t as [ids| |w]; cbn [start].
  - destruct (fold_tells ids (say [Begun ids] d) U) as (x & y & P & N & T). set (d1 := fold_left instances_id ids (say [Begun ids] d)) in *.
    assert (P1 : ph d d1 (Begun ids :: x) y).
    { constructor.
      - rewrite (ph_out _ _ _ _ P). cbn. now rewrite <- app_assoc.
      - rewrite (ph_self _ _ _ _ P). reflexivity.
      - eapply F2_impl; [|exact (ph_ents _ _ _ _ P)]. intros a b. apply egrown_more. intros. now right.
      - intros L b [K|K]; [|exfalso; now apply (N b)]. injection K as <-. intros e i A B C D E. apply (told_more _ _ x y); [intros z Z; now right|apply incl_refl|]. now apply (T L e i). }
    destruct (group_done ids d1); cbn [fst]; [|eauto]. eexists. eexists. eapply ph_trans; [exact P1|]. apply ph_say. discriminate.
  - exists [Booted], []. apply ph_same; auto. intros b [K|[]]. discriminate.
  - exists [Done w], []. apply ph_say. discriminate.
Qed.
Lemma ph_next l : forall d, uniq d -> exists x y, ph d (next l d) x y.
Proof.
  induction l as [|t r IH]; intros d U; cbn [next]; [exists [], []; apply ph_tasks|]. destruct (ph_start t d U) as (x & y & P). destruct (grew_start t d U) as (z & G). destruct (start t d) as [d1 a]. cbn [fst] in *. destruct a.
  - destruct (IH d1 (grew_uniq _ _ _ G U)) as (u & v & Q). eexists. eexists. eapply ph_trans; [exact P|exact Q].
  - eexists. eexists. eapply ph_trans; [exact P|apply ph_tasks].
Qed.
Lemma ph_dispatch d : uniq d -> exists x y, ph d (dispatch d) x y.
Proof.
  intro U. unfold dispatch. destruct (d_tasks d) as [|[ids| |w] r]; try (exists [], []; apply ph_refl). destruct (group_done ids d); [|exists [], []; apply ph_refl].
  destruct (ph_next r (say [Ended ids] d) U) as (x & y & P). eexists. eexists. eapply ph_trans; [|exact P]. apply ph_say. discriminate.
Qed.
Lemma ph_then d t : uniq d -> exists x y, ph d (andthen d t) x y.
Proof.
  intro U. unfold andthen. destruct (d_tasks d); [|exists [], []; apply ph_tasks]. destruct (ph_start t d U) as (x & y & P). destruct (start t d) as [d1 a]. cbn [fst] in P. destruct a; [eauto|]. eexists. eexists. eapply ph_trans; [exact P|apply ph_tasks].
Qed.
Lemma ph_thens l : forall d, uniq d -> exists x y, ph d (fold_left andthen l d) x y.
Proof.
  induction l as [|t r IH]; intros d U; cbn; [exists [], []; apply ph_refl|]. destruct (ph_then d t U) as (x & y & P). destruct (grew_then d t U) as (z & G). destruct (IH _ (grew_uniq _ _ _ G U)) as (u & v & Q). eexists. eexists. eapply ph_trans; [exact P|exact Q].
Qed.

(* ---- a step ---- *)
Definition no_begun (x : list effect) : Prop := forall b, ~ In (Begun b) x.
Definition good (d : dom) : Prop := lays d /\ forall b, In (Begun b) (d_out d) -> tells_of (fun id => In id b) d (d_out d) (d_self d).
Lemma good_ph d1 d2 x y : ph d1 d2 x y -> lays d1 -> no_begun (d_out d1) -> good d2.
Proof.
  intros P L N. split; [now apply (ph_lays d1 d2 x y)|]. intros b J. rewrite (ph_out _ _ _ _ P) in J. apply in_app_or in J as [J|J]; [exfalso; now apply (N b)|]. intros e i A B C D E.
  apply (told_more _ _ x y); [rewrite (ph_out _ _ _ _ P); apply incl_appr, incl_refl|rewrite (ph_self _ _ _ _ P); apply incl_appr, incl_refl|]. now apply (ph_told _ _ _ _ P L b J).
Qed.
Lemma good_say e d : (forall b, e <> Begun b) -> good d -> good (say [e] d).
Proof.
  intros N [L T]. split; [exact L|]. intros b J. cbn in J. apply in_app_or in J as [J|[J|[]]]; [|exfalso; now apply (N b)]. intros f i A B C D E. apply (told_more _ _ (d_out d) (d_self d)); [cbn; apply incl_appl, incl_refl|apply incl_refl|]. now apply (T b J f i).
Qed.
Lemma good_quiet d : lays d -> no_begun (d_out d) -> good d.
Proof. intros L N. split; [auto|]. intros b J. exfalso. now apply (N b). Qed.
Lemma lays_put e d : lay e -> lays d -> lays (put e d).
Proof. intros E L f J. cbn in J. apply in_map_iff in J as (x & <- & J). destruct (_ =? _); auto. Qed.
Lemma lays_same d d' : d_ents d' = d_ents d -> lays d -> lays d'.
Proof. unfold lays. intros ->. auto. Qed.
Lemma lays_remove p d : lays d -> lays (fst (remove p d)).
Proof.
  intro L. unfold remove. cbv zeta. set (d1 := set_sing _ _). assert (L1 : lays d1) by exact L.
  destruct (server_of p d1) as [e|] eqn:E.
  - apply server_of_in in E as (J & _). assert (L2 : lays (put (ent_drop p e) d1)) by (apply lays_put; [apply lay_drop; auto|auto]). destruct (e_restart e && _); [exact L2|].
    destruct (exec_of p (put (ent_drop p e) d1)) as [x|] eqn:X; [|exact L2]. apply exec_of_in in X as (Jx & _). assert (L3 : lays (put (ent_drop p x) (put (ent_drop p e) d1))) by (apply lays_put; [apply lay_drop; auto|auto]). destruct (e_restart x && _); exact L3.
  - destruct (exec_of p d1) as [x|] eqn:X; [|exact L1]. apply exec_of_in in X as (Jx & _). assert (L3 : lays (put (ent_drop p x) d1)) by (apply lays_put; [apply lay_drop; auto|auto]). destruct (e_restart x && _); exact L3.
Qed.
Lemma lays_down d : lays d -> lays (down_pre d).
Proof. intros L e J. unfold down_pre in J. cbn [d_ents set_ents cancel set_tasks set_level] in J. apply in_map_iff in J as (x & <- & J). destruct (_ =? _); [auto|apply lay_scale_to; auto]. Qed.
Lemma lays_all l es : forall d d', (forall e, In e es -> lay e) -> scale_all l es d = Some d' -> lays d -> lays d'.
Proof.
  induction es as [|e r IH]; intros d d' E; cbn [scale_all]; [intro H; injection H as <-; auto|]. assert (Er : forall e, In e r -> lay e) by (intros; apply E; now right). destruct (find _ l) as [x|]; [|now apply IH]. destruct (scale (snd x) e) as [e'|] eqn:S; [|discriminate]. intros H L. apply (IH _ _ Er H). apply lays_put; [|auto]. now apply (lay_scale (snd x) e).
Qed.
Lemma no_begun_nil : no_begun []. Proof. intros b []. Qed.
Lemma found_no_begun x : (forall e, In e x -> exists a b c e', e = Found a b c e') -> no_begun x.
Proof. intros H b J. apply H in J as (? & ? & ? & ? & J). discriminate. Qed.
Lemma shutdown_good d : uniq d -> lays d -> d_out d = [] -> good (shutdown d).
Proof.
  intros U L O. assert (U1 : uniq (down_pre d)) by (unfold uniq; rewrite (conf_ids _ _ (down_conf d)); exact U). rewrite shutdown_eq.
  match goal with |- context [fold_left andthen ?l ?x] => destruct (ph_thens l x U1) as (x1 & y1 & P); destruct (grew_thens l x U1) as (z & G) end. match goal with |- context [andthen ?x ?t] => destruct (ph_then x t (grew_uniq _ _ _ G U1)) as (x2 & y2 & P2) end.
  apply (good_ph _ _ _ _ (ph_trans _ _ _ _ _ _ _ P P2)); [now apply lays_down|]. unfold down_pre. cbn. rewrite O. apply no_begun_nil.
Qed.
Lemma join_good c d : uniq d -> lays d -> d_out d = [] -> good (join c d).
Proof.
  intros U L O. destruct (join_pre_pre c d U) as (x0 & P & _). rewrite join_eq. destruct (ph_dispatch (join_pre c d) (pre_uniq _ _ _ P U)) as (x & y & Q). apply (good_ph _ _ _ _ Q).
  - assert (L1 : lays (join_first c d)). { unfold lays. rewrite join_first_ents. destruct (server_of (c_pid c) d) as [e|] eqn:E; [|exact L]. apply server_of_in in E as (J & _). apply (lays_put (ent_conn (c_pid c) (c_ipc c) e) d); [apply lay_conn; auto|auto]. }
    rewrite join_pre_eq. pose proof (answer_all_books (d_look (join_first c d)) (join_first c d)) as A. destruct (answer_all _ _) as [d2 k]. cbn [fst] in *. destruct A as (_ & _ & _ & A & _). now apply (lays_same (join_first c d)).
  - rewrite join_pre_eq. pose proof (answer_all_books (d_look (join_first c d)) (join_first c d)) as A. destruct (answer_all _ _) as [d2 k]. cbn [fst] in *. destruct A as (_ & _ & _ & _ & _ & z & C & D). cbn [d_out set_look]. rewrite C. destruct (join_first_books c d) as (_ & _ & _ & Z). rewrite Z, O. cbn. now apply found_no_begun.
Qed.
Lemma prepared_no_begun l : no_begun (map (fun h : Z * option Z => match snd h with Some q => Ask q | None => Term (fst h) end) l).
Proof. intros b J. apply in_map_iff in J as ([p [q|]] & J & _); discriminate. Qed.
Lemma step_good o i d d' ev : uniq d -> (forall p gs m es, i = Begin p gs m es -> NoDup (map e_id es) /\ forall e, In e es -> lay e) -> lays d -> step o i d = Some (d', ev) ->
  lays d' /\ forall b, In (Begun b) ev -> tells_of (fun id => In id b) d' ev (d_self d').
Proof.
  intros U B L H. unfold step in H. set (d0 := set_out [] (set_orc o d)) in *. destruct (handle i d0) as [d1|] eqn:E; [|discriminate]. injection H as <- <-. assert (U0 : uniq d0) by exact U. assert (L0 : lays d0) by exact L.
  enough (G : good d1) by exact G. destruct i; cbn [handle] in E; try (injection E as <-).
  - destruct (B _ _ _ _ eq_refl) as [B1 B2]. unfold boot. match goal with |- context [fold_left andthen ?l ?x] => assert (Ux : uniq x) by (exact B1); destruct (ph_thens l x Ux) as (x1 & y1 & P); destruct (grew_thens l x Ux) as (z & G) end.
    match goal with |- context [andthen ?x TBoot] => destruct (ph_then x TBoot (grew_uniq _ _ _ G Ux)) as (x2 & y2 & P2) end. apply (good_ph _ _ _ _ (ph_trans _ _ _ _ _ _ _ P P2)); [exact B2|apply no_begun_nil].
  - unfold exit. pose proof (pre_remove pid d0 U0) as P. pose proof (lays_remove pid d0 L0) as L1. pose proof (remove_books pid d0) as (_ & _ & BO & _). destruct (remove pid d0) as [d2 r]. cbn [fst] in *. pose proof (pre_uniq _ _ _ P U0) as U2.
    assert (G : exists x y z, ph d2 (match r with Some id => instances_id d2 id | None => d2 end) x y /\ grew d2 (match r with Some id => instances_id d2 id | None => d2 end) z).
    { destruct r as [id|]; [destruct (id_tells id d2 U2) as (x & y & Q & _); destruct (grew_id id d2 U2) as (z & G); eauto|exists [], [], []; split; [apply ph_refl|apply grew_refl]]. }
    destruct G as (x & y & z & G1 & G2). destruct (ph_dispatch _ (grew_uniq _ _ _ G2 U2)) as (u & v & Q). apply (good_ph _ _ _ _ (ph_trans _ _ _ _ _ _ _ G1 Q)); [auto|]. rewrite BO. apply no_begun_nil.
  - unfold own. destruct (d_self d0) as [|[a l|l] r].
    + apply good_quiet; [auto|apply no_begun_nil].
    + destruct (ph_dispatch (set_self r d0) U0) as (u & v & Q). apply (good_ph _ _ _ _ Q); [auto|apply no_begun_nil].
    + apply good_quiet; [exact L0|]. cbn. apply prepared_no_begun.
  - assert (J : forall x, d_ents x = d_ents d -> d_out x = [] -> good (say [Answer (c_pid c) (c_ipc c) true] (join c x))).
    { intros x X1 X2. apply good_say; [discriminate|]. apply join_good; [unfold uniq; rewrite X1; exact U|now apply (lays_same d)|auto]. }
    assert (K : forall x, lays x -> d_out x = [] -> good (say [Answer (c_pid c) (c_ipc c) false] x)) by (intros x X1 X2; apply good_say; [discriminate|]; apply good_quiet; [auto|rewrite X2; apply no_begun_nil]).
    unfold connect. destruct (rank Running <? rank (d_level d0)); [apply K; auto|]. destruct (c_sing c) as [id|]; [|apply J; destruct (c_white c); reflexivity]. destruct (singleton id d0); [|apply J; destruct (c_white c); reflexivity]. apply K.
    + destruct (server_of (c_pid c) d0) as [e|] eqn:S; [apply server_of_in in S as (Je & _); apply lays_put; [apply lay_scale_to, lay_drop; auto|auto]|]. destruct (exec_of (c_pid c) d0) as [e|] eqn:S2; [apply exec_of_in in S2 as (Je & _); apply lays_put; [apply lay_scale_to, lay_drop; auto|auto]|auto].
    + destruct (server_of (c_pid c) d0); [reflexivity|]. destruct (exec_of (c_pid c) d0); reflexivity.
  - unfold lookup. pose proof (answer_books l d0) as A. destruct (answer l d0) as [d2 b]. cbn [fst] in *. destruct A as (_ & _ & _ & A & _ & x & C & D). destruct b; (apply good_quiet; [apply (lays_same d0); auto|cbn [d_out set_look]; rewrite C; now apply found_no_begun]).
  - apply good_quiet; [exact L0|]. cbn. apply prepared_no_begun.
  - now apply shutdown_good.
  - change (d_level d0) with (d_level d). destruct (d_level d); [apply shutdown_good; auto|apply good_quiet; [auto|apply no_begun_nil]..].
  - unfold scale_aliases in E. pose proof (scale_all_pre l (scalables d0 (map fst l)) d0) as SP. pose proof (lays_all l (scalables d0 (map fst l)) d0) as SL. pose proof (scale_all_orc l (scalables d0 (map fst l)) d0) as SO. destruct (scale_all l (scalables d0 (map fst l)) d0) as [d2|]; [|discriminate]. cbn [option_map] in E. injection E as <-.
    assert (SC : forall e, In e (scalables d0 (map fst l)) -> In e (d_ents d0)) by (intros e; apply scalables_in).
    destruct (SO d2 eq_refl) as [_ SO2]. assert (U2 : uniq d2) by (apply (pre_uniq d0 _ []); [apply SP; auto; intros e J; exists e; auto|auto]). assert (L2 : lays d2) by (apply SL; auto).
    match goal with |- context [andthen (andthen d2 ?t) ?u] => destruct (ph_then d2 t U2) as (x & y & P1); destruct (grew_then d2 t U2) as (z & G1); destruct (ph_then (andthen d2 t) u (grew_uniq _ _ _ G1 U2)) as (x2 & y2 & P2) end.
    apply (good_ph _ _ _ _ (ph_trans _ _ _ _ _ _ _ P1 P2)); [auto|]. rewrite SO2. apply no_begun_nil.
  - unfold assassinate. apply good_quiet; [destruct (severe && _); exact L0|]. destruct (severe && _); [intros b [K|[]]; discriminate|apply no_begun_nil].
Qed.
Lemma configured_lay p gs m es : configured p gs m es -> forall e, In e es -> lay e.
Proof.
  intros (_ & _ & _ & C & _) e J On. exists (e_inst e), []. split; [now rewrite app_nil_r|]. split; [|contradiction]. intros i K. left. destruct (C e J) as [(_ & _ & q & Q)|(_ & Q)]; [rewrite Q in K; destruct K as [<-|[]]; auto|]. rewrite (Q i K), On. auto.
Qed.
Lemma reach_lays d h : reach d h -> lays d.
Proof.
  intro R. induction R as [|d h o i d' ev R IH P S]; [intros e []|]. apply (step_good o i d d' ev); auto; [apply (k_rest _ _ (reach_kept _ _ R))|]. intros p gs m es ->. destruct P as [[_ P] _]. split; [apply P|now apply (configured_lay p gs m es)].
Qed.
Theorem batch_told d h i ev b e x : reach d (h ++ [(i, ev)]) -> In (Begun b) ev -> In e (d_ents d) -> In (e_id e) b -> e_on e = true -> In x (e_inst e) -> i_want x = PExit -> has_process (e_kind e) x -> told (e_kind e) x ev (d_self d).
Proof.
  intros R Bg J K On X W H. apply reach_last in R as (d0 & o & R0 & P & S). destruct (step_good o i d0 d ev) as [_ T]; auto.
  - apply (k_rest _ _ (reach_kept _ _ R0)).
  - intros p gs m es ->. destruct P as [[_ P] _]. split; [apply P|now apply (configured_lay p gs m es)].
  - now apply (reach_lays _ _ R0).
  - apply (T b Bg e x); auto. split; auto.
Qed.
(* what's prepared is told to end; and the manager handles what it has answered itself *)
Theorem prepared_asks d h l ev : reach d (h ++ [(Prepared l, ev)]) -> forall e, In e ev <-> exists p q, In (p, q) l /\ e = match q with Some a => Ask a | None => Term p end.
Proof.
  intros R e. apply reach_last in R as (d0 & o & R0 & P & S). unfold step in S. cbn [handle option_map prepared] in S. injection S as <- <-. cbn. rewrite in_map_iff. split.
  - intros ([p q] & <- & J). exists p, q. split; [auto|]. destruct q; auto.
  - intros (p & q & J & ->). exists (p, q). split; [destruct q; auto|auto].
Qed.
Theorem own_asks d0 h o d ev l r : reach d0 h -> d_self d0 = MReply l :: r -> possible h o Own -> step o Own d0 = Some (d, ev) -> forall p q, In (p, Some q) l -> In (Ask q) ev.
Proof.
  intros R E P S p q J. unfold step in S. cbn [handle option_map] in S. injection S as <- <-. unfold own. cbn [set_out set_orc d_self]. rewrite E. cbn. apply in_map_iff. exists (p, Some q). auto.
Qed.

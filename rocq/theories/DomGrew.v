(* The domain manager: which processes the tasks give rise to. *)
From Coq Require Import ZArith List Bool Lia Permutation.
From Verif Require Import DomModel DomSpec DomBoot DomFrame DomMarks DomStep DomTalk.
Import ListNotations.
Local Open Scope Z_scope.

Definition epids (e : ent) : list Z := flat_map pid_of (e_inst e).
Definition pids (d : dom) : list Z := flat_map epids (d_ents d).
Definition opids (o : list (option Z)) : list Z := flat_map (fun x => match x with Some p => [p] | None => [] end) o.
Definition spawned (x : list effect) : list Z := flat_map (fun e => match e with Spawned _ p => [p] | _ => [] end) x.
Lemma spawned_app a b : spawned (a ++ b) = spawned a ++ spawned b. Proof. apply flat_map_app. Qed.
Lemma spawned_in x p : In p (spawned x) <-> exists id, In (Spawned id p) x.
Proof.
  unfold spawned. rewrite in_flat_map. split.
  - intros (e & J & K). destruct e; try contradiction. destruct K as [->|[]]. eauto.
  - intros (id & J). exists (Spawned id p). cbn. auto.
Qed.
(* an instance after: it's as it was, or it was to be spawned, and has been or can't be *)
Definition grown (x : list effect) (id : Z) (i i' : inst) : Prop :=
  i' = i \/ (i_pid i = None /\ i_want i = PRun /\ ((exists p, i' = Inst (Some p) (i_ipc i) PRun /\ In (Spawned id p) x) \/ i' = Inst None (i_ipc i) PErr)).
Definition egrown (x : list effect) (e e' : ent) : Prop := conf e' = conf e /\ Forall2 (grown x (e_id e)) (e_inst e) (e_inst e').
Record grew (d d' : dom) (x : list effect) : Prop := Grew {
  g_out : d_out d' = d_out d ++ x; g_ents : Forall2 (egrown x) (d_ents d) (d_ents d'); g_orc : opids (d_orc d) = spawned x ++ opids (d_orc d'); g_pids : Permutation (pids d') (pids d ++ spawned x) }.
Lemma Forall2_same {A} (P : A -> A -> Prop) l : (forall x, In x l -> P x x) -> Forall2 P l l.
Proof. induction l as [|x l IH]; intro H; constructor; [apply H; cbn; auto|apply IH; intros; apply H; cbn; auto]. Qed.
Lemma egrown_refl x e : egrown x e e.
Proof. split; [auto|]. apply Forall2_same. intros i _. left. auto. Qed.
Lemma Forall2_trans' {A B C} (P : A -> B -> Prop) (Q : B -> C -> Prop) (R : A -> C -> Prop) a b c : (forall x y z, P x y -> Q y z -> R x z) -> Forall2 P a b -> Forall2 Q b c -> Forall2 R a c.
Proof. intros H F. revert c. induction F; intros c G; inversion G; subst; constructor; eauto. Qed.
Lemma grown_trans x y id a b c : grown x id a b -> grown y id b c -> grown (x ++ y) id a c.
Proof.
  intros [->|(A & B & C)] [->|(D & E & F)].
  - left. auto.
  - right. split; [auto|]. split; [auto|]. destruct F as [(p & -> & F)|F]; [left; exists p; split; [auto|apply in_or_app; auto]|auto].
  - right. split; [auto|]. split; [auto|]. destruct C as [(p & -> & F)|F]; [left; exists p; split; [auto|apply in_or_app; auto]|auto].
  - exfalso. destruct C as [(p & -> & _)| ->]; cbn in *; discriminate.
Qed.
Lemma egrown_trans x y a b c : egrown x a b -> egrown y b c -> egrown (x ++ y) a c.
Proof.
  intros [A B] [C D]. split; [congruence|]. assert (E : e_id b = e_id a) by (unfold conf in A; congruence). rewrite E in D. eapply Forall2_trans'; [|exact B|exact D]. intros i j k. apply grown_trans.
Qed.
Lemma grew_refl d : grew d d [].
Proof. constructor; cbn; auto; [now rewrite app_nil_r|apply Forall2_same; intros; apply egrown_refl|now rewrite app_nil_r]. Qed.
Lemma grew_trans a b c x y : grew a b x -> grew b c y -> grew a c (x ++ y).
Proof.
  intros [] []. constructor.
  - now rewrite g_out1, g_out0, app_assoc.
  - eapply Forall2_trans'; [|exact g_ents0|exact g_ents1]. intros; eapply egrown_trans; eauto.
  - now rewrite g_orc0, g_orc1, spawned_app, app_assoc.
  - rewrite g_pids1, g_pids0, spawned_app, app_assoc. auto.
Qed.
Lemma grew_conf d d' x : grew d d' x -> map conf (d_ents d') = map conf (d_ents d).
Proof. intros []. clear - g_ents0. induction g_ents0 as [|a b l m [H _] F IH]; [auto|]. cbn. now rewrite H, IH. Qed.
Lemma grew_uniq d d' x : grew d d' x -> uniq d -> uniq d'.
Proof. intros G U. unfold uniq. rewrite (conf_ids _ _ (grew_conf _ _ _ G)). auto. Qed.
Lemma grew_same d d' x : d_out d' = d_out d ++ x -> d_ents d' = d_ents d -> d_orc d' = d_orc d -> spawned x = [] -> grew d d' x.
Proof.
  intros A B C D. constructor; [auto| | |].
  - rewrite B. apply Forall2_same. intros; apply egrown_refl.
  - now rewrite C, D.
  - unfold pids. rewrite B, D, app_nil_r. auto.
Qed.
Lemma grew_say e d : match e with Spawned _ _ => False | _ => True end -> grew d (say [e] d) [e].
Proof. intro H. apply grew_same; auto. destruct e; auto; contradiction. Qed.
Lemma grew_in e d : exists x, grew d (scale_in e d) x.
Proof.
  unfold scale_in. destruct (subrange _ _) as [[a r] c]. destruct r as [|i r]; [exists []; apply grew_refl|]. destruct (e_kind e).
  - unfold shut. destruct (singleton sm d); [eexists; apply grew_say; exact Logic.I|exists []; apply grew_same; auto; cbn; now rewrite app_nil_r].
  - eexists. apply grew_same; auto; [reflexivity|]. induction (flat_map pid_of (rev (i :: r))); auto.
Qed.
Lemma spawns_grown id l : forall o l' ev o', (forall i, In i l -> i_pid i = None /\ i_want i = PRun) -> spawns id l o = (l', ev, o') ->
  Forall2 (grown ev id) l l' /\ opids o = spawned ev ++ opids o' /\ flat_map pid_of l' = spawned ev.
Proof.
  induction l as [|i l IH]; intros o l' ev o' H; cbn [spawns].
  - intro E; injection E as <- <- <-. cbn. auto.
  - destruct (H i (or_introl eq_refl)) as [H1 H2]. assert (Hl : forall j, In j l -> i_pid j = None /\ i_want j = PRun) by (intros; apply H; cbn; auto).
    assert (UP : forall f ev0 m m', Forall2 (grown ev0 id) m m' -> Forall2 (grown (f :: ev0) id) m m').
    { intros f ev0 m m' F. induction F as [|a b m m' K F IHF]; constructor; auto. destruct K as [->|(A & B & [(p & C & D)|C])]; [left; auto|right; repeat (split; [auto|]); left; exists p; cbn; auto|right; auto]. }
    assert (ERR : forall u v w, spawns id l (tl o) = (u, v, w) -> (exists r, o = None :: r) \/ o = [] -> Forall2 (grown (Failed id :: v) id) (i :: l) (Inst (i_pid i) (i_ipc i) PErr :: u) /\ opids o = spawned (Failed id :: v) ++ opids w /\ flat_map pid_of (Inst (i_pid i) (i_ipc i) PErr :: u) = spawned (Failed id :: v)).
    { intros u v w E N. apply (IH _ _ _ _ Hl) in E as (A & B & C). split; [constructor; [right; rewrite H1; auto|now apply UP]|]. split; [destruct N as [(r & ->)| ->]; cbn in *; exact B|]. cbn. rewrite H1. exact C. }
    destruct o as [|[p|] o].
    + destruct (spawns id l (tl [])) as [[u v] w] eqn:E. intro K; injection K as <- <- <-. apply ERR; auto.
    + destruct (spawns id l o) as [[u v] w] eqn:E. intro K; injection K as <- <- <-. apply (IH _ _ _ _ Hl) in E as (A & B & C). split; [constructor; [|now apply UP]|].
      * right. split; [auto|]. split; [auto|]. left. exists p. rewrite H2. cbn. auto.
      * split; [change (p :: opids o = p :: (spawned v ++ opids w)); now rewrite B|change (p :: flat_map pid_of u = p :: spawned v); now rewrite C].
    + destruct (spawns id l (tl (None :: o))) as [[u v] w] eqn:E. intro K; injection K as <- <- <-. apply ERR; eauto.
Qed.
Lemma out_st k i : is_st k SScaleOut i = true -> i_pid i = None /\ i_want i = PRun.
Proof. unfold is_st, state_of. destruct k, (i_want i), (i_pid i), (i_ipc i); cbn; intro H; try discriminate; auto. Qed.
Lemma put_forall2 (P : ent -> ent -> Prop) es e e' : NoDup (map e_id es) -> In e es -> e_id e' = e_id e -> P e e' -> (forall x, P x x) -> Forall2 P es (map (fun x => if e_id x =? e_id e' then e' else x) es).
Proof.
  intros N J E H R. induction es as [|x l IH]; [contradiction|]. cbn [map]. inversion N as [|? ? X Y]; subst. constructor.
  - destruct (e_id x =? e_id e') eqn:Q; [|auto]. apply Z.eqb_eq in Q. destruct J as [->|J]; [auto|]. exfalso. apply X. rewrite Q, E. now apply in_map.
  - destruct J as [->|J]; [|apply IH; auto]. rewrite E. assert (K : map (fun x => if e_id x =? e_id e then e' else x) l = l); [|rewrite K; apply Forall2_same; auto].
    rewrite <- (map_id l) at 2. apply map_ext_in. intros y J. destruct (e_id y =? e_id e) eqn:Q; [|auto]. apply Z.eqb_eq in Q. exfalso. apply X. rewrite <- Q. now apply in_map.
Qed.
Lemma put_pids es e e' y : NoDup (map e_id es) -> In e es -> e_id e' = e_id e -> Permutation (epids e') (epids e ++ y) -> Permutation (flat_map epids (map (fun x => if e_id x =? e_id e' then e' else x) es)) (flat_map epids es ++ y).
Proof.
  intros N J E H. induction es as [|x l IH]; [contradiction|]. cbn [map flat_map]. inversion N as [|? ? X Y]; subst. destruct J as [->|J].
  - rewrite E, Z.eqb_refl. assert (K : map (fun x => if e_id x =? e_id e then e' else x) l = l).
    { rewrite <- (map_id l) at 2. apply map_ext_in. intros z J. destruct (e_id z =? e_id e) eqn:Q; [|auto]. apply Z.eqb_eq in Q. exfalso. apply X. rewrite <- Q. now apply in_map. }
    rewrite K, H, <- !app_assoc. apply Permutation_app_head. apply Permutation_app_comm.
  - assert (Q : e_id x =? e_id e' = false). { apply Z.eqb_neq. intro Q. apply X. rewrite Q, E. now apply in_map. } rewrite Q, IH by auto. now rewrite app_assoc.
Qed.
Lemma grew_scale_out e d : uniq d -> In e (d_ents d) -> exists x, grew d (scale_out e d) x.
Proof.
  intros U J. unfold scale_out. destruct (match e_kind e with Server => e_on e | Exec => true end); [|exists []; apply grew_refl].
  destruct (subrange _ _) as [[a r] c] eqn:S. destruct r as [|i r]; [exists []; apply grew_refl|]. apply subrange_app in S as (S1 & _ & S3 & _).
  destruct (spawns (e_id e) (i :: r) (d_orc d)) as [[l' ev] o] eqn:E. apply spawns_grown in E as (E1 & E2 & E3); [|intros j K; apply S3 in K; now apply out_st in K].
  set (e' := with_inst (a ++ l' ++ c) e). assert (C : Permutation (epids e') (epids e ++ spawned ev)).
  { unfold epids, e'. cbn [with_inst e_inst]. rewrite S1, !flat_map_app, E3. assert (Z0 : flat_map pid_of (i :: r) = []).
    { assert (A : forall j, In j (i :: r) -> pid_of j = []) by (intros j K; apply S3 in K; apply out_st in K as [K _]; unfold pid_of; now rewrite K). clear - A. induction (i :: r) as [|j m IH]; [auto|]. cbn. rewrite (A j (or_introl eq_refl)). apply IH. intros; apply A; cbn; auto. }
    rewrite Z0. cbn [app]. rewrite <- app_assoc. apply Permutation_app_head. apply Permutation_app_comm. }
  exists ev. constructor; cbn [push set_self set_orc say put d_out d_ents d_orc set_out set_ents].
  - reflexivity.
  - apply (put_forall2 _ _ e); auto; [|apply egrown_refl]. split; [reflexivity|]. unfold e'. cbn [with_inst e_inst]. rewrite S1. apply Forall2_app; [apply Forall2_same; intros; left; auto|]. apply Forall2_app; [auto|apply Forall2_same; intros; left; auto].
  - exact E2.
  - unfold pids. cbn [d_ents]. apply (put_pids _ e); auto.
Qed.
Lemma grew_id id d : uniq d -> exists x, grew d (instances_id d id) x.
Proof.
  intro U. unfold instances_id. destruct (entity id d) as [e|] eqn:E; [|exists []; apply grew_refl]. apply entity_in in E as [J _]. unfold instances. destruct (grew_in e d) as (x & X). destruct (scale_in_frame e d) as (x' & _ & _ & F & _).
  destruct (grew_scale_out e (scale_in e d)) as (y & Y); [apply (grew_uniq _ _ _ X U)|now rewrite F|]. exists (x ++ y). now apply (grew_trans d (scale_in e d)).
Qed.
Lemma grew_fold ids : forall d, uniq d -> exists x, grew d (fold_left instances_id ids d) x.
Proof.
  induction ids as [|i r IH]; intros d U; cbn; [exists []; apply grew_refl|]. destruct (grew_id i d U) as (x & X). destruct (IH _ (grew_uniq _ _ _ X U)) as (y & Y). exists (x ++ y). now apply (grew_trans d (instances_id d i)).
Qed.
Lemma grew_tasks l d : grew d (set_tasks l d) [].
Proof. apply grew_same; auto. cbn. now rewrite app_nil_r. Qed.
Lemma grew_start t d : uniq d -> exists x, grew d (fst (start t d)) x.
Proof.
  intro U. destruct t as [ids| |w]; cbn [start fst].
  - destruct (grew_fold ids (say [Begun ids] d) U) as (x & X). assert (G : grew d (fold_left instances_id ids (say [Begun ids] d)) ([Begun ids] ++ x)) by (apply (grew_trans d (say [Begun ids] d)); [now apply grew_say|auto]).
    destruct (group_done ids _); cbn [fst]; [|eauto]. eexists. eapply grew_trans; [exact G|now apply grew_say].
  - exists [Booted]. apply grew_same; auto.
  - exists [Done w]. now apply grew_say.
Qed.
Lemma grew_next l : forall d, uniq d -> exists x, grew d (next l d) x.
Proof.
  induction l as [|t r IH]; intros d U; cbn [next]; [exists []; apply grew_tasks|]. destruct (grew_start t d U) as (x & X). destruct (start t d) as [d1 a]. cbn [fst] in X. destruct a.
  - destruct (IH d1 (grew_uniq _ _ _ X U)) as (y & Y). exists (x ++ y). now apply (grew_trans d d1).
  - exists (x ++ []). apply (grew_trans d d1); [auto|apply grew_tasks].
Qed.
Lemma grew_dispatch d : uniq d -> exists x, grew d (dispatch d) x.
Proof.
  intro U. unfold dispatch. destruct (d_tasks d) as [|[ids| |w] r]; try (exists []; apply grew_refl). destruct (group_done ids d); [|exists []; apply grew_refl].
  destruct (grew_next r (say [Ended ids] d) U) as (x & X). eexists. eapply grew_trans; [|exact X]. now apply grew_say.
Qed.
Lemma grew_then d t : uniq d -> exists x, grew d (andthen d t) x.
Proof.
  intro U. unfold andthen. destruct (d_tasks d); [|exists []; apply grew_tasks]. destruct (grew_start t d U) as (x & X). destruct (start t d) as [d1 a]. cbn [fst] in X. destruct a; [eauto|]. exists (x ++ []). apply (grew_trans d d1); [auto|apply grew_tasks].
Qed.
Lemma grew_thens l : forall d, uniq d -> exists x, grew d (fold_left andthen l d) x.
Proof.
  induction l as [|t r IH]; intros d U; cbn; [exists []; apply grew_refl|]. destruct (grew_then d t U) as (x & X). destruct (IH _ (grew_uniq _ _ _ X U)) as (y & Y). exists (x ++ y). now apply (grew_trans d (andthen d t)).
Qed.

(* The domain manager: what a request to scale does. *)
From Coq Require Import ZArith List Bool Lia Permutation.
From Verif Require Import DomModel DomSpec DomBoot DomFrame DomMarks DomStep DomSeq DomOpen DomTalk DomSing DomScale DomGrew DomWhite.
Import ListNotations.
Local Open Scope Z_scope.

Definition same_kind (k k' : kind) : bool := match k, k' with Server, Server | Exec, Exec => true | _, _ => false end.
Lemma same_kind_iff k k' : same_kind k k' = true <-> k = k'.
Proof. destruct k, k'; cbn; split; auto; discriminate. Qed.
Lemma find_first {A} (p : A -> bool) l x : find p l = Some x <-> exists a r, l = a ++ x :: r /\ p x = true /\ forall y, In y a -> p y = false.
Proof.
  split.
  - induction l as [|y l IH]; cbn; [discriminate|]. intro H. destruct (p y) eqn:E; [injection H as ->; exists [], l; cbn; auto; split; [auto|]; split; [auto|]; intros z []|]. destruct (IH H) as (a & r & -> & P & Q). exists (y :: a), r. split; [auto|]. split; [auto|]. intros z [<-|J]; auto.
  - intros (a & r & -> & P & Q). induction a as [|y a IH]; cbn; [now rewrite P|]. rewrite (Q y (or_introl eq_refl)). apply IH. intros; apply Q; cbn; auto.
Qed.
Lemma by_first k a d e : by_alias k a d = Some e <-> first_named (d_ents d) k a e.
Proof.
  unfold by_alias. rewrite find_first. unfold first_named. change (fun e0 => (e_alias e0 =? a) && match e_kind e0, k with Server, Server | Exec, Exec => true | _, _ => false end) with (fun e0 => (e_alias e0 =? a) && same_kind (e_kind e0) k).
  split; intros (l & r & E & H); exists l, r; (split; [auto|]).
  - destruct H as [P Q]. apply andb_true_iff in P as [P1 P2]. apply Z.eqb_eq in P1. apply same_kind_iff in P2. split; [auto|]. split; [auto|]. intros x J [K1 K2]. specialize (Q x J). apply (proj2 (same_kind_iff _ _)) in K1. cbn beta in Q. change ((e_alias x =? a) && same_kind (e_kind x) k = false) in Q. rewrite K1, K2, Z.eqb_refl in Q. discriminate.
  - destruct H as (P1 & P2 & Q). split; [apply andb_true_iff; split; [now apply Z.eqb_eq|now apply same_kind_iff]|]. intros x J. specialize (Q x J). change ((e_alias x =? a) && same_kind (e_kind x) k = false). destruct (e_alias x =? a) eqn:E1; [|auto]. destruct (same_kind (e_kind x) k) eqn:E2; [|auto].
    exfalso. apply Q. split; [now apply same_kind_iff|now apply Z.eqb_eq].
Qed.
Lemma free_iff d h e : reach d h -> untouchable d e = false <-> scales_freely h e.
Proof.
  intro R. unfold untouchable, scales_freely. split.
  - intros H i p J P W. apply (white_list d h p R) in W. assert (X : existsb (fun p => existsb (has_pid p) (e_inst e)) (d_white d) = true); [|congruence]. apply existsb_exists. exists p. split; [auto|]. apply existsb_exists. exists i. split; [auto|]. unfold has_pid. rewrite P. apply Z.eqb_refl.
  - intro H. destruct (existsb _ (d_white d)) eqn:X; [|auto]. exfalso. apply existsb_exists in X as (p & W & X). apply existsb_exists in X as (i & J & X). unfold has_pid in X. destruct (i_pid i) as [q|] eqn:P; [|discriminate]. apply Z.eqb_eq in X. subst q. apply (H i p J P). now apply (white_list d h p R).
Qed.
Lemma sort_in_in x y l : In y (sort_in x l) <-> y = x \/ In y l.
Proof.
  induction l as [|z l IH]; cbn; [intuition|]. destruct (x <? z); [cbn; intuition|]. destruct (x =? z) eqn:E; [apply Z.eqb_eq in E; subst; cbn; intuition|]. cbn. rewrite IH. intuition.
Qed.
Lemma sorted_in y l : In y (fold_right sort_in [] l) <-> In y l.
Proof. induction l as [|x l IH]; cbn; [tauto|]. rewrite sort_in_in, IH. intuition. Qed.
Lemma first_one es k a e e' : first_named es k a e -> first_named es k a e' -> e = e'.
Proof.
  intros (l & r & E & K & A & Q) (l' & r' & E' & K' & A' & Q'). subst es. revert l' E' Q'. induction l as [|x l IH]; intros [|x' l'] E' Q'; cbn in E'; injection E' as E1 E2; auto.
  - subst x'. exfalso. apply (Q' e); cbn; auto.
  - subst x. exfalso. apply (Q e'); cbn; auto.
  - apply (IH (fun x J => Q x (or_intror J)) l' E2). intros; apply Q'; cbn; auto.
Qed.
Lemma first_in es k a e : first_named es k a e -> In e es /\ e_kind e = k /\ e_alias e = a.
Proof. intros (l & r & -> & K & A & _). split; [apply in_or_app; cbn; auto|auto]. Qed.
Lemma scalables_chosen d h names e : reach d h -> In e (scalables d names) <-> chosen (d_ents d) h names e.
Proof.
  intro R. unfold scalables. rewrite in_app_iff, !in_flat_map. unfold chosen. rewrite <- (free_iff d h e R).
  assert (S : forall a, In e (scalable d Server a) <-> first_named (d_ents d) Server a e /\ untouchable d e = false).
  { intro a. unfold scalable. destruct (by_alias Server a d) as [f|] eqn:F.
    - pose proof (proj1 (by_first _ _ _ _) F) as F'. destruct (untouchable d f) eqn:U; cbn.
      + split; [contradiction|]. intros [G V]. rewrite (first_one _ _ _ _ _ F' G) in U. congruence.
      + split; [intros [<-|[]]; auto|]. intros [G V]. left. apply (first_one _ _ _ _ _ F' G).
    - split; [contradiction|]. intros [G V]. apply by_first in G. congruence. }
  assert (X : forall a, In e (scalable d Exec a) <-> first_named (d_ents d) Exec a e /\ untouchable d e = false /\ forall s, first_named (d_ents d) Server a s -> ~ scales_freely h s).
  { intro a. unfold scalable. assert (Y : In e (match by_alias Exec a d with Some x => if untouchable d x then [] else [x] | None => [] end) <-> first_named (d_ents d) Exec a e /\ untouchable d e = false).
    { destruct (by_alias Exec a d) as [f|] eqn:F.
      - pose proof (proj1 (by_first _ _ _ _) F) as F'. destruct (untouchable d f) eqn:U; cbn.
        + split; [contradiction|]. intros [G V]. rewrite (first_one _ _ _ _ _ F' G) in U. congruence.
        + split; [intros [<-|[]]; auto|]. intros [G V]. left. apply (first_one _ _ _ _ _ F' G).
      - split; [contradiction|]. intros [G V]. apply by_first in G. congruence. }
    destruct (by_alias Server a d) as [f|] eqn:F.
    - pose proof (proj1 (by_first _ _ _ _) F) as F'. destruct (untouchable d f) eqn:U; cbn [negb].
      + rewrite Y. split; [|tauto]. intros [G V]. split; [auto|]. split; [auto|]. intros s Gs Fs. rewrite <- (first_one _ _ _ _ _ F' Gs) in Fs. apply (free_iff d h f R) in Fs. congruence.
      + split; [contradiction|]. intros (_ & _ & G). exfalso. apply (G f F'). now apply (free_iff d h f R).
    - rewrite Y. split; [|tauto]. intros [G V]. split; [auto|]. split; [auto|]. intros s Gs _. apply by_first in Gs. congruence. }
  split.
  - intros [(a & J & K)|(a & J & K)]; apply (proj1 (sorted_in _ _)) in J.
    + apply S in K as [K V]. destruct (first_in _ _ _ _ K) as (K1 & K2 & K3). subst a. split; [auto|]. split; [now rewrite K2|]. split; [auto|]. rewrite K2. discriminate.
    + apply X in K as (K & V & W). destruct (first_in _ _ _ _ K) as (K1 & K2 & K3). subst a. split; [auto|]. split; [now rewrite K2|]. auto.
  - intros (J & F & V & W). destruct (e_kind e) eqn:K.
    + left. exists (e_alias e). split; [now apply (proj2 (sorted_in _ _))|]. apply S. auto.
    + right. exists (e_alias e). split; [now apply (proj2 (sorted_in _ _))|]. apply X. auto.
Qed.

(* ---- what's scaled ---- *)
Definition asked_of (l : list (Z * Z)) (e : ent) : ent := match find (fun x => fst x =? e_alias e) l with Some x => scale_to (snd x) e | None => e end.
Lemma asked_conf l e : conf (asked_of l e) = conf e.
Proof. unfold asked_of. destruct (find _ l) as [x|]; [|auto]. unfold scale_to. destruct (scale (snd x) e) eqn:S; [apply (scale_conf' _ _ _ S)|auto]. Qed.
Lemma asked_id l e : e_id (asked_of l e) = e_id e. Proof. pose proof (asked_conf l e) as H. unfold conf in H. congruence. Qed.
Definition of_ids (ids : list Z) (l : list (Z * Z)) (e : ent) : ent := if existsb (Z.eqb (e_id e)) ids then asked_of l e else e.
Lemma of_ids_id ids l e : e_id (of_ids ids l e) = e_id e.
Proof. unfold of_ids. destruct (existsb _ ids); [apply asked_id|auto]. Qed.
Lemma put_map l E ids e : NoDup (map e_id E) -> In e E -> map (fun x => if e_id x =? e_id (asked_of l e) then asked_of l e else x) (map (of_ids ids l) E) = map (of_ids (e_id e :: ids) l) E.
Proof.
  intros N J. rewrite map_map. apply map_ext_in. intros y K. rewrite of_ids_id, asked_id. unfold of_ids at 2. cbn [existsb]. destruct (e_id y =? e_id e) eqn:Q; cbn [orb]; [|reflexivity].
  apply Z.eqb_eq in Q. now rewrite (uniq_id E y e N K J Q).
Qed.
Lemma scale_all_ents l E es : NoDup (map e_id E) -> incl es E -> forall d d1 ids, d_ents d = map (of_ids ids l) E -> scale_all l es d = Some d1 ->
  (exists ids', d_ents d1 = map (of_ids ids' l) E /\ forall x, In x ids' <-> In x ids \/ exists e, In e es /\ e_id e = x /\ In (e_alias e) (map fst l)) /\ forall e x, In e es -> find (fun x => fst x =? e_alias e) l = Some x -> scale (snd x) e <> None.
Proof.
  intro N. induction es as [|e r IH]; intros I d d1 ids D; cbn [scale_all].
  - intro H. injection H as <-. split; [|contradiction]. exists ids. split; [auto|]. intro x. split; [auto|]. intros [J|(e & [] & _)]. auto.
  - assert (Je : In e E) by (apply I; now left). assert (Ir : incl r E) by (intros y J; apply I; now right). destruct (find _ l) as [x|] eqn:F.
    + assert (AL : In (e_alias e) (map fst l)) by (pose proof (find_some _ _ F) as [J Q]; cbn in Q; apply Z.eqb_eq in Q; rewrite <- Q; now apply in_map).
      destruct (scale (snd x) e) as [e'|] eqn:S; [|discriminate]. intro H. assert (A : e' = asked_of l e) by (unfold asked_of; rewrite F; unfold scale_to; now rewrite S). subst e'.
      assert (D' : d_ents (put (asked_of l e) d) = map (of_ids (e_id e :: ids) l) E) by (cbn; rewrite D; now apply put_map).
      destruct (IH Ir _ _ _ D' H) as [(ids' & E1 & Q) U]. split.
      * exists ids'. split; [auto|]. intro y. rewrite Q. cbn [In]. split.
        -- intros [[<-|J]|(f & J & K)]; auto; right; [exists e; auto|exists f; tauto].
        -- intros [J|(f & [<-|J] & K)]; [auto|left; left; tauto|right; exists f; auto].
      * intros f y [<-|J] Fy; [|now apply (U f y)]. rewrite F in Fy. injection Fy as <-. congruence.
    + intro H. destruct (IH Ir _ _ _ D H) as [(ids' & E1 & Q) U]. assert (AL : ~ In (e_alias e) (map fst l)) by (intro J; apply in_map_iff in J as (y & Y & J); apply (find_none _ _ F) in J; cbn in J; rewrite Y, Z.eqb_refl in J; discriminate). split.
      * exists ids'. split; [auto|]. intro y. rewrite Q. split; [intros [J|(f & J & K)]; auto; right; exists f; cbn; tauto|]. intros [J|(f & [<-|J] & K)]; [auto|tauto|right; exists f; auto].
      * intros f y [<-|J] Fy; [congruence|now apply (U f y)].
Qed.
Lemma grown_wanted x id l l' : Forall2 (grown x id) l l' -> length (filter (fun i => match i_want i with PExit => false | _ => true end) l') = length (filter (fun i => match i_want i with PExit => false | _ => true end) l).
Proof.
  induction 1 as [|a b l l' G F IH]; [auto|]. cbn. destruct G as [->|(_ & W & [(p & -> & _)| ->])]; [|rewrite W; cbn; auto|rewrite W; cbn; auto]. destruct (i_want a); cbn; auto.
Qed.
Lemma egrown_wanted x e e' : egrown x e e' -> wanted e' = wanted e.
Proof. intros [_ F]. apply (grown_wanted _ _ _ _ F). Qed.
Lemma F2_left {A B} (P : A -> B -> Prop) l m a : Forall2 P l m -> In a l -> exists b, In b m /\ P a b.
Proof. induction 1 as [|x y l m H F IH]; [contradiction|]. intros [<-|J]; [exists y; cbn; auto|]. destruct (IH J) as (b & K & Q). exists b. cbn. auto. Qed.
Lemma first_find l a n : first_count l a n <-> option_map snd (find (fun x => fst x =? a) l) = Some n.
Proof.
  split.
  - intros (x & r & -> & N). induction x as [|[b m] x IH]; cbn; [now rewrite Z.eqb_refl|]. cbn in N. destruct (b =? a) eqn:Q; [apply Z.eqb_eq in Q; tauto|]. apply IH. tauto.
  - destruct (find (fun x => fst x =? a) l) as [[b m]|] eqn:F; [|discriminate]. cbn. intro H. injection H as ->. apply find_first in F as (x & r & -> & Q & K). cbn in Q. apply Z.eqb_eq in Q. subst b. exists x, r. split; [auto|]. intro J. apply in_map_iff in J as (y & Y & J). apply K in J. rewrite Y, Z.eqb_refl in J. discriminate.
Qed.
Lemma scale_request_pre d0 h o l d ev : reach d0 h -> step o (ScaleTo l) d0 = Some (d, ev) -> exists es d1 ids',
  es = scalables d0 (map fst l) /\ d_tasks d1 = d_tasks d0 /\ d_out d1 = [] /\ d_ents d1 = map (of_ids ids' l) (d_ents d0) /\ (forall x, In x ids' <-> exists e, In e es /\ e_id e = x) /\ (forall e x, In e es -> find (fun x => fst x =? e_alias e) l = Some x -> scale (snd x) e <> None)
  /\ d_out (andthen (andthen d1 (TScale (map e_id es))) (TDone WScale)) = ev /\ d_ents d = d_ents (andthen (andthen d1 (TScale (map e_id es))) (TDone WScale)) /\ uniq d1.
Proof.
  intros R S. unfold step in S. set (s0 := set_out [] (set_orc o d0)) in *. destruct (handle (ScaleTo l) s0) as [s|] eqn:E; [|discriminate]. injection S as <- <-. cbn [handle] in E. unfold scale_aliases in E.
  change (scalables s0 (map fst l)) with (scalables d0 (map fst l)) in E. set (es := scalables d0 (map fst l)) in *. destruct (scale_all l es s0) as [d1|] eqn:A; [|discriminate]. injection E as <-.
  pose proof (k_rest _ _ (reach_kept _ _ R)) as (U & _). assert (I : incl es (d_ents d0)) by (intros e J; apply (scalables_chosen d0 h) in J; [|auto]; destruct J as (_ & F & _); apply first_in in F; tauto).
  assert (D0 : d_ents s0 = map (of_ids [] l) (d_ents d0)) by (symmetry; change (d_ents s0) with (d_ents d0); apply map_id).
  destruct (scale_all_ents l (d_ents d0) es U I s0 d1 [] D0 A) as [(ids' & E1 & Q) N]. exists es, d1, ids'. split; [auto|].
  assert (T : d_tasks d1 = d_tasks s0 /\ d_out d1 = d_out s0). { clear - A. clearbody s0 es. revert s0 d1 A. induction es as [|e r IH]; intros s d1; cbn [scale_all]; [intro H; injection H as <-; auto|]. destruct (find _ l) as [x|]; [|apply IH]. destruct (scale (snd x) e); [|discriminate]. intro H. apply IH in H. auto. }
  destruct T as [T1 T2]. split; [exact T1|]. split; [exact T2|]. split; [auto|]. split; [|split; [auto|]].
  - intro x. rewrite Q. split; [intros [[]|(e & J & K & _)]; eauto|]. intros (e & J & K). right. exists e. split; [auto|]. split; [auto|]. apply (scalables_chosen d0 h) in J; [|auto]. apply (proj1 J).
  - split; [reflexivity|]. split; [reflexivity|]. unfold uniq. rewrite E1, map_map. erewrite map_ext; [exact U|]. intro e. apply of_ids_id.
Qed.
Theorem scale_request d0 h o l d ev e : reach d0 h -> possible h o (ScaleTo l) -> step o (ScaleTo l) d0 = Some (d, ev) -> In e (d_ents d0) ->
  exists e', In e' (d_ents d) /\ conf e' = conf e /\
    (chosen (d_ents d0) h (map fst l) e -> exists n, first_count l (e_alias e) n /\ Z.of_nat (wanted e') = n) /\
    (~ chosen (d_ents d0) h (map fst l) e -> wanted e' = wanted e /\ forall i, In i (e_inst e) -> i_pid i <> None -> In i (e_inst e')).
Proof.
  intros R _ S J. destruct (scale_request_pre d0 h o l d ev R S) as (es & d1 & ids' & -> & T & O & E & Q & N & _ & D & U1). set (es := scalables d0 (map fst l)) in *.
  assert (G : exists x, grew d1 (andthen (andthen d1 (TScale (map e_id es))) (TDone WScale)) x).
  { destruct (grew_then d1 (TScale (map e_id es)) U1) as (x & X). destruct (grew_then _ (TDone WScale) (grew_uniq _ _ _ X U1)) as (y & Y). exists (x ++ y). eapply grew_trans; eauto. }
  destruct G as (x & [_ G _ _]). rewrite <- D, E in G. destruct (F2_left _ _ _ (of_ids ids' l e) G) as (e' & K & W); [now apply in_map|]. exists e'. split; [auto|].
  pose proof (k_rest _ _ (reach_kept _ _ R)) as (U & _). assert (C : conf (of_ids ids' l e) = conf e) by (unfold of_ids; destruct (existsb _ ids'); [apply asked_conf|auto]). split; [rewrite (proj1 W); auto|]. rewrite (egrown_wanted _ _ _ W).
  unfold of_ids in *. destruct (existsb (Z.eqb (e_id e)) ids') eqn:X.
  - apply existsb_exists in X as (y & X & Y). apply Z.eqb_eq in Y. subst y. apply Q in X as (f & X & Y). assert (If : In f (d_ents d0)) by (apply (scalables_chosen d0 h) in X; [|auto]; destruct X as (_ & F & _); apply first_in in F; tauto). rewrite (uniq_id _ f e U If J Y) in X.
    pose proof (proj1 (scalables_chosen d0 h _ _ R) X) as X'. split; [intros _|tauto]. destruct X' as (A & _). apply in_map_iff in A as ([a n] & A & A'). cbn in A. unfold asked_of. destruct (find (fun x => fst x =? e_alias e) l) as [[b m]|] eqn:F.
    + specialize (N e _ X F). exists m. split; [apply first_find; now rewrite F|]. unfold scale_to. cbn [snd] in *. destruct (scale m e) as [e1|] eqn:Sc; [|contradiction]. apply (scale_wanted m e e1 Sc).
    + apply (find_none _ _ F) in A'. cbn in A'. subst a. rewrite Z.eqb_refl in A'. discriminate.
  - split.
    + intro X'. exfalso. apply (proj2 (scalables_chosen d0 h _ _ R)) in X'. assert (Y : existsb (Z.eqb (e_id e)) ids' = true); [|congruence]. apply existsb_exists. exists (e_id e). split; [apply Q; exists e; auto|apply Z.eqb_refl].
    + intros _. split; [auto|]. intros i Ji Pi. destruct W as [_ W]. destruct (F2_left _ _ _ i W Ji) as (i' & Ji' & [->|(P & _)]); [auto|contradiction].
Qed.
(* if nothing is going on the batch begins at once *)
Theorem scale_request_begins d0 h o l d ev : reach d0 h -> possible h o (ScaleTo l) -> step o (ScaleTo l) d0 = Some (d, ev) -> (forall b, ~ going_on b h) ->
  exists b r, ev = Begun b :: r /\ forall e, In e (d_ents d0) -> In (e_id e) b <-> chosen (d_ents d0) h (map fst l) e.
Proof.
  intros R _ S NG. destruct (scale_request_pre d0 h o l d ev R S) as (es & d1 & ids' & -> & T & O & _ & _ & _ & <- & _ & U1). set (es := scalables d0 (map fst l)) in *. exists (map e_id es).
  pose proof (k_rest _ _ (reach_kept _ _ R)) as (U & FO & _).
  assert (T0 : d_tasks d1 = []). { rewrite T. destruct (d_tasks d0) as [|[ids| |w] r] eqn:TT; auto; try contradiction. exfalso. apply (NG ids). apply (going_iff d0 h ids R). eauto. }
  assert (OUT : exists r, d_out (andthen d1 (TScale (map e_id es))) = Begun (map e_id es) :: r).
  { unfold andthen. rewrite T0. cbn [start]. assert (UB : uniq (say [Begun (map e_id es)] d1)) by exact U1. destruct (grew_fold (map e_id es) (say [Begun (map e_id es)] d1) UB) as (x & [G _ _ _]). cbn [say d_out set_out] in G. rewrite O in G. cbn [app] in G.
    destruct (group_done _ _); [|eexists; exact G]. eexists. cbn [say d_out set_out]. rewrite G. reflexivity. }
  destruct OUT as (r & OUT). assert (U2 : uniq (andthen d1 (TScale (map e_id es)))) by (destruct (grew_then d1 (TScale (map e_id es)) U1) as (x & X); apply (grew_uniq _ _ _ X U1)).
  destruct (grew_then (andthen d1 (TScale (map e_id es))) (TDone WScale) U2) as (y & [G _ _ _]). rewrite OUT in G. exists (r ++ y). split; [exact G|]. intros e J. split.
  - intro K. apply in_map_iff in K as (f & K1 & K). assert (If : In f (d_ents d0)) by (apply (scalables_chosen d0 h) in K; [|auto]; destruct K as (_ & F & _); apply first_in in F; tauto). rewrite (uniq_id _ f e U If J K1) in K. now apply (scalables_chosen d0 h).
  - intro K. apply in_map. now apply (scalables_chosen d0 h).
Qed.

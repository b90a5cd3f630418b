(* Invariants and lemmas about QueueModel. *)
From Coq Require Import ZArith List String Bool Lia Permutation.
From Verif Require Import QueueModel QueueSpec.
Import ListNotations.
Local Open Scope Z_scope.

Ltac bdest :=
  repeat match goal with
  | H : _ && _ = true |- _ => apply andb_true_iff in H; destruct H
  | H : negb _ = true |- _ => apply negb_true_iff in H
  | H : negb _ = false |- _ => apply negb_false_iff in H
  | H : (_ =? _) = true |- _ => apply Z.eqb_eq in H
  | H : (_ =? _) = false |- _ => apply Z.eqb_neq in H
  | H : (_ <? _) = true |- _ => apply Z.ltb_lt in H
  | H : (_ <? _) = false |- _ => apply Z.ltb_ge in H
  end.

(* ------------------------------------------------------------ partial maps over tables *)

Definition omap {A B} (f : A -> option B) (l : list A) : list B :=
  flat_map (fun a => match f a with Some b => [b] | None => [] end) l.

Lemma omap_in {A B} (f : A -> option B) l b :
  In b (omap f l) <-> exists a, In a l /\ f a = Some b.
Proof.
  unfold omap. rewrite in_flat_map. split.
  - intros [a [Ha Hb]]. destruct (f a) eqn:E; [|destruct Hb].
    destruct Hb as [<-|[]]. eauto.
  - intros [a [Ha Hf]]. exists a. rewrite Hf. simpl; auto.
Qed.

Lemma omap_comp {A B C} (f : A -> option B) (g : B -> option C) l :
  omap g (omap f l) = omap (fun a => match f a with Some b => g b | None => None end) l.
Proof.
  induction l as [|a l IH]; simpl; auto.
  unfold omap in *. simpl. destruct (f a); simpl; rewrite IH; auto.
Qed.

Lemma omap_ext {A B} (f g : A -> option B) l :
  (forall a, In a l -> f a = g a) -> omap f l = omap g l.
Proof.
  induction l as [|a l IH]; intros H; simpl; auto.
  unfold omap in *; simpl. rewrite (H a) by (simpl; auto). rewrite IH; auto.
  intros; apply H; simpl; auto.
Qed.

Lemma omap_filter (p : msg -> bool) l :
  filter (fun m => negb (p m)) l = omap (fun m => if p m then None else Some m) l.
Proof.
  induction l as [|a l IH]; simpl; auto.
  unfold omap in *; simpl. destruct (p a); simpl; rewrite IH; auto.
Qed.

Lemma omap_map {A B} (f : A -> B) l : map f l = omap (fun a => Some (f a)) l.
Proof. induction l as [|a l IH]; [reflexivity|]. unfold omap in *; simpl. rewrite IH; auto. Qed.

Lemma omap_some {A} (l : list A) : omap Some l = l.
Proof. induction l; [reflexivity|]. unfold omap in *; simpl. rewrite IHl; auto. Qed.

Definition keeps_id (f : msg -> option msg) := forall m m', f m = Some m' -> m_id m' = m_id m.

Lemma omap_ids_incl f l i :
  keeps_id f -> In i (map m_id (omap f l)) -> In i (map m_id l).
Proof.
  intros K H. apply in_map_iff in H as [m' [<- H]].
  apply omap_in in H as [m [Hm Hf]]. rewrite (K _ _ Hf). apply in_map; auto.
Qed.

Lemma omap_nodup f l : keeps_id f -> NoDup (map m_id l) -> NoDup (map m_id (omap f l)).
Proof.
  intros K. induction l as [|m l IH]; simpl; intros H; [constructor|].
  inversion H; subst. unfold omap in *; simpl.
  destruct (f m) eqn:E; simpl; auto.
  constructor; auto. rewrite (K _ _ E). intro Hi. apply H2.
  eapply omap_ids_incl; eauto.
Qed.

(* ------------------------------------------------------------ peek *)

Lemma peek_in i d m : qb_peek i d = Some m -> In m (msgs d) /\ m_id m = i.
Proof.
  unfold qb_peek. intros H.
  destruct (filter (fun m => m_id m =? i) (msgs d)) as [|x l] eqn:E; [discriminate|].
  simpl in H. injection H as <-.
  assert (Hi : In x (filter (fun m => m_id m =? i) (msgs d))) by (rewrite E; simpl; auto).
  apply filter_In in Hi as [Hi Hx]. bdest; auto.
Qed.

Lemma peek_none i d : qb_peek i d = None -> forall m, In m (msgs d) -> m_id m <> i.
Proof.
  unfold qb_peek. intros H m Hm Hi.
  destruct (filter (fun m => m_id m =? i) (msgs d)) as [|x l] eqn:E; [|discriminate].
  assert (In m (filter (fun m => m_id m =? i) (msgs d))).
  { apply filter_In; split; auto. apply Z.eqb_eq; auto. }
  rewrite E in H0. destruct H0.
Qed.

Lemma nodup_unique (l : list msg) m m' :
  NoDup (map m_id l) -> In m l -> In m' l -> m_id m = m_id m' -> m = m'.
Proof.
  induction l as [|x l IH]; simpl; intros N H H' E; [tauto|].
  inversion N; subst.
  destruct H as [->|H], H' as [->|H']; auto.
  - exfalso. apply H2. rewrite E. apply in_map; auto.
  - exfalso. apply H2. rewrite <- E. apply in_map; auto.
Qed.

Lemma peek_of_in d m : NoDup (map m_id (msgs d)) -> In m (msgs d) -> qb_peek (m_id m) d = Some m.
Proof.
  intros N H. destruct (qb_peek (m_id m) d) eqn:E.
  - apply peek_in in E as [E1 E2]. f_equal. eapply nodup_unique; eauto.
  - exfalso. eapply peek_none in E; eauto.
Qed.

Lemma peek_omap i d d' f :
  NoDup (map m_id (msgs d)) -> keeps_id f -> msgs d' = omap f (msgs d) ->
  qb_peek i d' = match qb_peek i d with Some m => f m | None => None end.
Proof.
  intros N K E.
  assert (N' : NoDup (map m_id (msgs d'))) by (rewrite E; apply omap_nodup; auto).
  destruct (qb_peek i d) as [m|] eqn:P.
  - apply peek_in in P as [Hin <-].
    destruct (f m) as [m'|] eqn:F.
    + rewrite <- (K _ _ F). apply peek_of_in; auto.
      rewrite E. apply omap_in; eauto.
    + destruct (qb_peek (m_id m) d') as [m'|] eqn:P'; auto.
      apply peek_in in P' as [H1 H2]. rewrite E in H1. apply omap_in in H1 as [m0 [H0 F0]].
      pose proof (K _ _ F0).
      assert (m0 = m) by (apply (nodup_unique (msgs d)); auto; congruence).
      subst. congruence.
  - destruct (qb_peek i d') as [m'|] eqn:P'; auto.
    apply peek_in in P' as [H1 H2]. rewrite E in H1. apply omap_in in H1 as [m0 [H0 F0]].
    pose proof (K _ _ F0). exfalso. apply (peek_none _ _ P m0 H0). congruence.
Qed.

(* ------------------------------------------------------------ triggers keep the static columns *)

Definition q_static (q : qrow) := (q_id q, q_name q, q_retry_count q, q_retry_delay q, q_error q).

Lemma run_triggers_map {A} (t : A -> qrow -> qrow) rows qs :
  run_triggers t rows qs = map (fun q => fold_left (fun q r => t r q) rows q) qs.
Proof.
  unfold run_triggers. revert qs. induction rows as [|r rows IH]; intros qs; simpl.
  - rewrite map_id. auto.
  - rewrite IH, map_map. auto.
Qed.

Definition static_trig {A} (t : A -> qrow -> qrow) := forall r q, q_static (t r q) = q_static q.

Lemma fold_static {A} (t : A -> qrow -> qrow) rows q :
  static_trig t -> q_static (fold_left (fun q r => t r q) rows q) = q_static q.
Proof.
  intros S. revert q. induction rows as [|r rows IH]; intros q; simpl; auto.
  rewrite IH. apply S.
Qed.

Lemma run_static {A} (t : A -> qrow -> qrow) rows qs :
  static_trig t -> map q_static (run_triggers t rows qs) = map q_static qs.
Proof.
  intros S. rewrite run_triggers_map, map_map. apply map_ext. intros. apply fold_static; auto.
Qed.

Ltac unfold_trig := unfold trig_insert, trig_state, trig_queue, trig_delete, q_add.

Lemma static_insert : static_trig trig_insert.
Proof. intros r q. unfold_trig. repeat destruct (_ && _); reflexivity. Qed.
Lemma static_state f : static_trig (fun m => trig_state m (f m)).
Proof. intros r q. unfold_trig. repeat destruct (_ && _); reflexivity. Qed.
Lemma static_queue f : static_trig (fun m => trig_queue m (f m)).
Proof. intros r q. unfold_trig. destruct (_ && _); simpl; destruct (_ && _); reflexivity. Qed.
Lemma static_delete : static_trig trig_delete.
Proof. intros r q. unfold_trig. destruct (_ && _); simpl; destruct (_ && _); reflexivity. Qed.
#[export] Hint Resolve static_insert static_state static_queue static_delete : core.

Lemma static_eq_id q q' : q_static q = q_static q' -> q_id q = q_id q'.
Proof. unfold q_static. congruence. Qed.

Lemma map_static_ids qs qs' : map q_static qs = map q_static qs' -> map q_id qs = map q_id qs'.
Proof.
  intros H.
  assert (E : forall l, map q_id l = map (fun s => fst (fst (fst (fst s)))) (map q_static l)).
  { intros l. rewrite map_map. reflexivity. }
  rewrite (E qs), (E qs'), H. reflexivity.
Qed.

Lemma static_in qs qs' q :
  map q_static qs = map q_static qs' -> In q qs -> exists q', In q' qs' /\ q_static q' = q_static q.
Proof.
  intros E H. assert (In (q_static q) (map q_static qs')) by (rewrite <- E; apply in_map; auto).
  apply in_map_iff in H0 as [q' [A B]]. eauto.
Qed.

Lemma has_queue_in qs i : has_queue qs i = true <-> In i (map q_id qs).
Proof.
  unfold has_queue. rewrite existsb_exists, in_map_iff. split.
  - intros [q [A B]]. bdest. eauto.
  - intros [q [A B]]. exists q; split; auto. apply Z.eqb_eq; auto.
Qed.

Lemma find_q_static qs qs' i :
  map q_static qs = map q_static qs' ->
  option_map q_static (find_q qs i) = option_map q_static (find_q qs' i).
Proof.
  revert qs'. induction qs as [|q qs IH]; intros [|q' qs'] E; simpl in *; try discriminate; auto.
  injection E as E0 E1 E2 E3 E4 E5. unfold find_q in *. simpl. rewrite E0.
  destruct (q_id q' =? i); simpl; auto.
  unfold q_static. congruence.
Qed.

(* ------------------------------------------------------------ metrics *)

Definition is_committed (m : msg) := (m_state m =? 2) || (m_state m =? 3).
Definition cnt (q : Z) (m : msg) : Z := if (m_queue m =? q) && is_committed m then 1 else 0.
Definition siz (q : Z) (m : msg) : Z := if (m_queue m =? q) && is_committed m then plen m else 0.
Definition unc (q : Z) (m : msg) : Z := if (m_queue m =? q) && (m_state m =? 1) then 1 else 0.

Definition total {A} (f : A -> Z) (l : list A) : Z := fold_right (fun m s => f m + s) 0 l.

Lemma total_app {A} (f : A -> Z) l l' : total f (l ++ l') = total f l + total f l'.
Proof. unfold total. induction l; simpl; lia. Qed.

Lemma total_ext {A} (f g : A -> Z) l : (forall a, In a l -> f a = g a) -> total f l = total g l.
Proof.
  induction l; simpl; intros H; auto. rewrite H by auto. f_equal. apply IHl; auto.
Qed.

Lemma total_neg {A} (f : A -> Z) l : total (fun m => - f m) l = - total f l.
Proof. induction l as [|a l IH]; simpl in *; [reflexivity|]. rewrite IH. lia. Qed.

Lemma total_filter (f : msg -> Z) p l :
  total f l = total f (filter p l) + total f (filter (fun m => negb (p m)) l).
Proof. unfold total; induction l as [|a l IH]; simpl; auto. destruct (p a); simpl; lia. Qed.

Lemma total_update (f : msg -> Z) (p : msg -> bool) (h : msg -> msg) (l : list msg) :
  total f (map (fun m => if p m then h m else m) l)
  = total f l + total (fun m : msg => f (h m) - f m) (filter p l).
Proof. unfold total; induction l as [|a l IH]; simpl; auto. destruct (p a); simpl; lia. Qed.

Definition metrics_ok (ms : list msg) (q : qrow) : Prop :=
  q_count q = total (cnt (q_id q)) ms /\
  q_size q = total (siz (q_id q)) ms /\
  q_uncommitted q = total (unc (q_id q)) ms.

(* [t] adds [dc], [ds], [du] to the three counters *)
Definition adds {A} (t : A -> qrow -> qrow) (dc ds du : Z -> A -> Z) (r : A) :=
  forall q, q_count (t r q) = q_count q + dc (q_id q) r /\
            q_size (t r q) = q_size q + ds (q_id q) r /\
            q_uncommitted (t r q) = q_uncommitted q + du (q_id q) r.

Lemma fold_adds {A} (t : A -> qrow -> qrow) dc ds du rows q :
  static_trig t -> (forall r, In r rows -> adds t dc ds du r) ->
  let q' := fold_left (fun q r => t r q) rows q in
  q_count q' = q_count q + total (dc (q_id q)) rows /\
  q_size q' = q_size q + total (ds (q_id q)) rows /\
  q_uncommitted q' = q_uncommitted q + total (du (q_id q)) rows.
Proof.
  intros S. revert q. induction rows as [|r rows IH]; intros q H; simpl; [lia|].
  destruct (H r (or_introl eq_refl) q) as [A1 [A2 A3]].
  destruct (IH (t r q)) as [B1 [B2 B3]]; [intros; apply H; simpl; auto|].
  rewrite B1, B2, B3, A1, A2, A3. rewrite (static_eq_id _ _ (S r q)). lia.
Qed.

Ltac splitbools :=
  repeat match goal with
  | |- context [?a =? ?b] => destruct (Z.eqb_spec a b)
  | |- context [?a <? ?b] => destruct (Z.ltb_spec a b)
  end; simpl.

Lemma adds_delete m :
  adds trig_delete (fun q m => - cnt q m) (fun q m => - siz q m) (fun q m => - unc q m) m.
Proof.
  intros q. unfold trig_delete, cnt, siz, unc, is_committed, q_add.
  rewrite (Z.eqb_sym (m_queue m)).
  destruct (Z.eqb_spec (q_id q) (m_queue m)); simpl;
  destruct (Z.eqb_spec (m_state m) 2); simpl; destruct (Z.eqb_spec (m_state m) 3); simpl;
  destruct (Z.eqb_spec (m_state m) 1); simpl;
  repeat match goal with |- context [?a =? ?b] => destruct (Z.eqb_spec a b); simpl end; try lia.
Qed.

Lemma adds_state f m :
  m_queue (f m) = m_queue m -> m_content (f m) = m_content m ->
  ((m_state m = 1 /\ m_state (f m) = 2) \/ (m_state m = 2 /\ m_state (f m) = 3) \/ (m_state m = 3 /\ m_state (f m) = 2)) ->
  adds (fun m => trig_state m (f m)) (fun q m => cnt q (f m) - cnt q m)
       (fun q m => siz q (f m) - siz q m) (fun q m => unc q (f m) - unc q m) m.
Proof.
  intros Hq Hc Hs q. unfold trig_state, cnt, siz, unc, is_committed, q_add, plen.
  rewrite Hq, Hc, (Z.eqb_sym (m_queue m)).
  destruct Hs as [[E E']|[[E E']|[E E']]]; rewrite E, E'; simpl;
  destruct (Z.eqb_spec (q_id q) (m_queue m)); simpl; lia.
Qed.

Lemma adds_queue f m :
  m_state (f m) = m_state m -> m_content (f m) = m_content m -> is_committed m = true ->
  adds (fun m => trig_queue m (f m)) (fun q m => cnt q (f m) - cnt q m)
       (fun q m => siz q (f m) - siz q m) (fun q m => unc q (f m) - unc q m) m.
Proof.
  intros Hs Hc Hk q. unfold trig_queue, cnt, siz, unc, is_committed, q_add, plen in *.
  rewrite Hs, Hc, Hk.
  assert (E1 : (m_state m =? 1) = false).
  { apply Z.eqb_neq. intro E. rewrite E in Hk. discriminate. }
  rewrite E1, !andb_false_r, !andb_true_r.
  rewrite (Z.eqb_sym (m_queue (f m)) (q_id q)), (Z.eqb_sym (m_queue m) (q_id q)),
          (Z.eqb_sym (m_queue m) (m_queue (f m))).
  destruct (Z.eqb_spec (q_id q) (m_queue (f m))); simpl;
  destruct (Z.eqb_spec (m_queue (f m)) (m_queue m)); simpl;
  destruct (Z.eqb_spec (q_id q) (m_queue m)); simpl; try lia.
Qed.

(* ------------------------------------------------------------ the invariant *)

Definition row_ok (m : msg) : Prop :=
  (m_state m = 1 \/ m_state m = 2 \/ m_state m = 3) /\
  (m_state m <> 2 -> m_gtrid m <> 0) /\
  (m_state m = 1 -> m_queue m = m_origin m) /\
  (m_queue m = m_origin m \/ (m_queue m = m_origin m - 1 /\ Z.rem (m_origin m) 2 = 0)).

Definition qids (d : db) := map q_id (queues d).

Record qs_ok (qs : list qrow) : Prop := {
  qo_nodup : NoDup (map q_id qs);
  qo_pos : forall q, In q qs -> 1 <= q_id q;
  qo_even : forall q, In q qs -> Z.rem (q_id q) 2 = 0 -> q_error q = q_id q - 1 /\ In (q_id q - 1) (map q_id qs);
  qo_odd : forall q, In q qs -> Z.rem (q_id q) 2 <> 0 -> q_error q = 0 /\ In (q_id q + 1) (map q_id qs)
}.

Record Inv (d : db) : Prop := {
  inv_ids : NoDup (map m_id (msgs d));
  inv_fk : forall m, In m (msgs d) -> In (m_queue m) (qids d);
  inv_origin : forall m, In m (msgs d) -> In (m_origin m) (qids d);
  inv_rows : forall m, In m (msgs d) -> row_ok m;
  inv_qs : qs_ok (queues d);
  inv_metrics : forall q, In q (queues d) -> metrics_ok (msgs d) q
}.

Lemma qs_ok_static qs qs' : map q_static qs' = map q_static qs -> qs_ok qs -> qs_ok qs'.
Proof.
  intros E [N P Ev Od].
  pose proof (map_static_ids _ _ E) as Ei.
  constructor.
  - rewrite Ei; auto.
  - intros q H. destruct (static_in _ _ _ E H) as [q' [A B]].
    rewrite <- (static_eq_id _ _ B). auto.
  - intros q H. destruct (static_in _ _ _ E H) as [q' [A B]].
    specialize (Ev q' A). unfold q_static in B. injection B as B0 _ _ _ B4.
    rewrite Ei, <- B0, <- B4. auto.
  - intros q H. destruct (static_in _ _ _ E H) as [q' [A B]].
    specialize (Od q' A). unfold q_static in B. injection B as B0 _ _ _ B4.
    rewrite Ei, <- B0, <- B4. auto.
Qed.

Lemma fk_ok_in d : fk_ok d = true <-> forall m, In m (msgs d) -> In (m_queue m) (qids d).
Proof.
  unfold fk_ok. rewrite forallb_forall. split; intros H m Hm; specialize (H m Hm).
  - apply has_queue_in; auto.
  - apply has_queue_in; auto.
Qed.

Lemma Inv_empty : Inv db_empty.
Proof. constructor; simpl; try tauto; try constructor; simpl; try tauto; constructor. Qed.

(* --- delete *)
Lemma msgs_delete p d : msgs (delete_where p d) = omap (fun m => if p m then None else Some m) (msgs d).
Proof. apply omap_filter. Qed.

Lemma Inv_delete p d : Inv d -> Inv (delete_where p d).
Proof.
  intros [N F O R Q M].
  assert (Hst : map q_static (queues (delete_where p d)) = map q_static (queues d)).
  { simpl. apply run_static; auto. }
  assert (Hin : forall m, In m (msgs (delete_where p d)) -> In m (msgs d)).
  { intros m H. simpl in H. apply filter_In in H. tauto. }
  constructor.
  - rewrite msgs_delete. apply omap_nodup; auto. intros m m' E. destruct (p m); congruence.
  - intros m H. unfold qids. rewrite (map_static_ids _ _ Hst). auto.
  - intros m H. unfold qids. rewrite (map_static_ids _ _ Hst). auto.
  - auto.
  - eapply qs_ok_static; eauto.
  - simpl. rewrite run_triggers_map. intros q' H. apply in_map_iff in H as [q [<- H]].
    specialize (M q H). destruct M as [M1 [M2 M3]].
    pose proof (fold_adds trig_delete _ _ _ (filter p (msgs d)) q static_delete
                  (fun r _ => adds_delete r)) as [A1 [A2 A3]].
    pose proof (static_eq_id _ _ (fold_static trig_delete (filter p (msgs d)) q static_delete)) as Eid.
    assert (Neg : forall f : msg -> Z, total (fun m => - f m) (filter p (msgs d)) = - total f (filter p (msgs d))).
    { intros f. apply total_neg. }
    unfold metrics_ok. rewrite Eid, A1, A2, A3, M1, M2, M3.
    cbv beta. rewrite !Neg.
    rewrite (total_filter (cnt (q_id q)) p (msgs d)), (total_filter (siz (q_id q)) p (msgs d)), (total_filter (unc (q_id q)) p (msgs d)).
    lia.
Qed.

(* --- updates *)
Lemma msgs_update_state p f d :
  msgs (update_state_where p f d) = omap (fun m => Some (if p m then f m else m)) (msgs d).
Proof. simpl. apply omap_map. Qed.

Definition upd (p : msg -> bool) (f : msg -> msg) (m : msg) := if p m then f m else m.

Lemma Inv_update_state p f d :
  Inv d ->
  (forall m, In m (msgs d) -> p m = true -> m_id (f m) = m_id m /\ m_queue (f m) = m_queue m
       /\ m_origin (f m) = m_origin m /\ m_content (f m) = m_content m /\ row_ok (f m) /\
       ((m_state m = 1 /\ m_state (f m) = 2) \/ (m_state m = 2 /\ m_state (f m) = 3) \/ (m_state m = 3 /\ m_state (f m) = 2))) ->
  Inv (update_state_where p f d).
Proof.
  intros [N F O R Q M] H.
  assert (Hst : map q_static (queues (update_state_where p f d)) = map q_static (queues d)).
  { simpl. apply run_static; auto. }
  assert (Hin : forall m', In m' (msgs (update_state_where p f d)) ->
            exists m, In m (msgs d) /\ m_id m' = m_id m /\ m_queue m' = m_queue m /\ m_origin m' = m_origin m /\ row_ok m').
  { intros m' Hm. simpl in Hm. apply in_map_iff in Hm as [m [<- Hm]]. exists m.
    destruct (p m) eqn:E; [destruct (H m Hm E) as (?&?&?&?&?&?)|]; auto 10. }
  constructor.
  - simpl. rewrite map_map. erewrite map_ext_in; [exact N|].
    intros m Hm. simpl. destruct (p m) eqn:E; auto. apply (H m Hm E).
  - intros m' Hm. unfold qids. rewrite (map_static_ids _ _ Hst).
    destruct (Hin _ Hm) as (m&A&B&C&D&_). rewrite C. apply F; auto.
  - intros m' Hm. unfold qids. rewrite (map_static_ids _ _ Hst).
    destruct (Hin _ Hm) as (m&A&B&C&D&_). rewrite D. apply O; auto.
  - intros m' Hm. destruct (Hin _ Hm) as (m&A&B&C&D&E). auto.
  - eapply qs_ok_static; eauto.
  - simpl. rewrite run_triggers_map. intros q' Hq. apply in_map_iff in Hq as [q [<- Hq]].
    specialize (M q Hq). destruct M as [M1 [M2 M3]].
    assert (AA : forall r, In r (filter p (msgs d)) ->
      adds (fun m => trig_state m (f m)) (fun q m => cnt q (f m) - cnt q m)
       (fun q m => siz q (f m) - siz q m) (fun q m => unc q (f m) - unc q m) r).
    { intros r Hr. apply filter_In in Hr as [Hr Hp]. destruct (H r Hr Hp) as (?&?&?&?&?&?).
      apply adds_state; auto. }
    pose proof (fold_adds _ _ _ _ (filter p (msgs d)) q (static_state f) AA) as [A1 [A2 A3]].
    pose proof (static_eq_id _ _ (fold_static _ (filter p (msgs d)) q (static_state f))) as Eid.
    simpl in *. unfold metrics_ok. rewrite Eid, A1, A2, A3, M1, M2, M3, !total_update. lia.
Qed.

Lemma Inv_update_queue p f d d' :
  Inv d ->
  (forall m, In m (msgs d) -> p m = true -> m_id (f m) = m_id m /\ m_state (f m) = m_state m
       /\ m_origin (f m) = m_origin m /\ m_content (f m) = m_content m /\ row_ok (f m) /\ is_committed m = true) ->
  update_queue_where p f d = Some d' ->
  Inv d'.
Proof.
  intros [N F O R Q M] H U. unfold update_queue_where in U.
  destruct (fk_ok _) eqn:FK in U; [|discriminate]. injection U as <-.
  set (d' := mk_db _ _) in *.
  assert (Hst : map q_static (queues d') = map q_static (queues d)).
  { simpl. apply run_static; auto. }
  assert (Hin : forall m', In m' (msgs d') ->
            exists m, In m (msgs d) /\ m_id m' = m_id m /\ m_origin m' = m_origin m /\ row_ok m').
  { intros m' Hm. simpl in Hm. apply in_map_iff in Hm as [m [<- Hm]]. exists m.
    destruct (p m) eqn:E; [destruct (H m Hm E) as (?&?&?&?&?&?)|]; auto 10. }
  constructor.
  - simpl. rewrite map_map. erewrite map_ext_in; [exact N|].
    intros m Hm. simpl. destruct (p m) eqn:E; auto. apply (H m Hm E).
  - apply fk_ok_in; auto.
  - intros m' Hm. unfold qids. rewrite (map_static_ids _ _ Hst).
    destruct (Hin _ Hm) as (m&A&B&D&_). rewrite D. apply O; auto.
  - intros m' Hm. destruct (Hin _ Hm) as (m&A&B&D&E). auto.
  - eapply qs_ok_static; eauto.
  - simpl. rewrite run_triggers_map. intros q' Hq. apply in_map_iff in Hq as [q [<- Hq]].
    specialize (M q Hq). destruct M as [M1 [M2 M3]].
    assert (AA : forall r, In r (filter p (msgs d)) ->
      adds (fun m => trig_queue m (f m)) (fun q m => cnt q (f m) - cnt q m)
       (fun q m => siz q (f m) - siz q m) (fun q m => unc q (f m) - unc q m) r).
    { intros r Hr. apply filter_In in Hr as [Hr Hp]. destruct (H r Hr Hp) as (?&?&?&?&?&?).
      apply adds_queue; auto. }
    pose proof (fold_adds _ _ _ _ (filter p (msgs d)) q (static_queue f) AA) as [A1 [A2 A3]].
    pose proof (static_eq_id _ _ (fold_static _ (filter p (msgs d)) q (static_queue f))) as Eid.
    simpl in *. unfold metrics_ok. rewrite Eid, A1, A2, A3, M1, M2, M3, !total_update. lia.
Qed.

(* --- enqueue *)
Lemma Inv_insert m d d' :
  Inv d -> row_ok m -> m_queue m = m_origin m -> m_state m <> 3 -> insert_msg m d = Some d' -> Inv d'.
Proof.
  intros [N F O R Q M] RO QO S3 I. unfold insert_msg in I.
  destruct (existsb _ _) eqn:E in I; [discriminate|].
  destruct (negb _) eqn:E2 in I; [discriminate|]. injection I as <-. bdest.
  apply has_queue_in in E2.
  assert (Hst : map q_static (map (trig_insert m) (queues d)) = map q_static (queues d)).
  { rewrite map_map. apply map_ext. intros. apply static_insert. }
  constructor; simpl.
  - rewrite map_app. simpl.
    apply (Permutation_NoDup (l := m_id m :: map m_id (msgs d))); [apply Permutation_cons_append|].
    constructor; auto.
    intros Hi. apply in_map_iff in Hi as [r [A B]].
    assert (existsb (fun r => m_id r =? m_id m) (msgs d) = true).
    { apply existsb_exists. exists r. split; auto. apply Z.eqb_eq; auto. }
    congruence.
  - intros x Hx. unfold qids; simpl. rewrite (map_static_ids _ _ Hst).
    apply in_app_iff in Hx as [Hx|[<-|[]]]; [apply F; auto|auto].
  - intros x Hx. unfold qids; simpl. rewrite (map_static_ids _ _ Hst).
    apply in_app_iff in Hx as [Hx|[<-|[]]]; [apply O; auto|rewrite <- QO; auto].
  - intros x Hx. apply in_app_iff in Hx as [Hx|[<-|[]]]; auto.
  - eapply qs_ok_static; eauto.
  - intros q' Hq. apply in_map_iff in Hq as [q [<- Hq]].
    destruct (M q Hq) as [M1 [M2 M3]].
    unfold metrics_ok. rewrite (static_eq_id _ _ (static_insert m q)), !total_app.
    unfold trig_insert, q_add. simpl. unfold cnt at 2, siz at 2, unc at 2, is_committed.
    rewrite (Z.eqb_sym (m_queue m)).
    destruct RO as [[S|[S|S]] _]; rewrite S in *; simpl;
    destruct (Z.eqb_spec (q_id q) (m_queue m)); simpl; try lia;
    repeat match goal with |- context [?a =? ?b] => destruct (Z.eqb_spec a b); simpl end; try lia.
Qed.

(* ------------------------------------------------------------ queue table operations *)

Lemma max_id_ub qs q : In q qs -> q_id q <= max_id qs.
Proof. induction qs; simpl; [tauto|]. intros [->|H]; [lia|]. apply IHqs in H. lia. Qed.

Lemma max_id_nonneg qs : 0 <= max_id qs.
Proof. induction qs; simpl; lia. Qed.

Lemma max_id_in qs : max_id qs = 0 \/ In (max_id qs) (map q_id qs).
Proof.
  induction qs as [|q qs IH]; simpl; auto.
  destruct (Z.max_spec (q_id q) (max_id qs)) as [[_ E]|[_ E]]; rewrite E; auto.
  destruct IH; auto.
Qed.

Lemma max_id_app qs qs' : max_id (qs ++ qs') = Z.max (max_id qs) (max_id qs').
Proof. induction qs; simpl; [pose proof (max_id_nonneg qs'); lia|lia]. Qed.

Lemma rem2 z : Z.rem z 2 = 0 \/ Z.rem z 2 = 1 \/ Z.rem z 2 = -1.
Proof. pose proof (Z.rem_bound_abs z 2). lia. Qed.

Lemma rem2_even_iff z : Z.rem z 2 = 0 <-> exists k, z = 2 * k.
Proof.
  split.
  - intros H. exists (Z.quot z 2). pose proof (Z.quot_rem z 2). lia.
  - intros [k ->]. rewrite Z.mul_comm. apply Z.rem_mul. lia.
Qed.

Lemma rem2_odd_iff z : Z.rem z 2 <> 0 <-> exists k, z = 2 * k + 1.
Proof.
  split.
  - intros H. destruct (rem2 z) as [E|[E|E]]; [tauto| |].
    + exists (Z.quot z 2). pose proof (Z.quot_rem z 2). lia.
    + exists (Z.quot z 2 - 1). pose proof (Z.quot_rem z 2). lia.
  - intros [k ->] H. apply rem2_even_iff in H as [j H]. lia.
Qed.

Lemma max_even qs : qs_ok qs -> exists k, max_id qs = 2 * k.
Proof.
  intros [N P E O]. destruct (max_id_in qs) as [H|H]; [exists 0; lia|].
  apply in_map_iff in H as [q [A B]].
  destruct (Z.eq_dec (Z.rem (q_id q) 2) 0) as [Ev|Od].
  - apply rem2_even_iff in Ev as [k Ev]. exists k. lia.
  - exfalso. destruct (O q B Od) as [_ H]. apply in_map_iff in H as [r [C D]].
    apply max_id_ub in D. lia.
Qed.

(* the counters of rows with an id that no message uses *)
Lemma total_zero f (l : list msg) : (forall m, In m l -> f m = 0) -> total f l = 0.
Proof. unfold total; induction l; simpl; intros H; auto. rewrite H by auto. rewrite IHl; auto. Qed.

Lemma metrics_fresh ms q :
  (forall m, In m ms -> m_queue m <> q_id q) -> q_count q = 0 -> q_size q = 0 -> q_uncommitted q = 0 ->
  metrics_ok ms q.
Proof.
  intros H A B C. unfold metrics_ok. rewrite A, B, C.
  repeat split; symmetry; apply total_zero; intros m Hm;
  unfold cnt, siz, unc; destruct (Z.eqb_spec (m_queue m) (q_id q)); auto; exfalso; eapply H; eauto.
Qed.

Lemma Inv_create n c dl d d' : Inv d -> qb_create n c dl d = Some d' -> Inv d'.
Proof.
  intros [N F O R Q M] H. unfold qb_create, insert_queue in H.
  destruct (name_taken (queues d) _) in H; [discriminate|].
  set (mx := max_id (queues d)) in *.
  set (e := mk_q (mx + 1) _ 0 0 0 0 0 0 0 0 0) in *.
  destruct (name_taken (queues d ++ [e]) n) in H; [discriminate|]. injection H as <-.
  rewrite max_id_app. simpl. fold mx. rewrite (Z.max_l (mx + 1) 0) by (pose proof (max_id_nonneg (queues d)); lia).
  rewrite (Z.max_r mx (mx+1)) by lia.
  set (w := mk_q (mx + 1 + 1) _ _ _ _ 0 0 0 0 0 0).
  pose proof (max_id_nonneg (queues d)) as Hmx. fold mx in Hmx.
  assert (Ub : forall i, In i (map q_id (queues d)) -> i <= mx).
  { intros i Hi. apply in_map_iff in Hi as [q [<- Hq]]. apply max_id_ub; auto. }
  destruct (max_even _ Q) as [k Hk]. fold mx in Hk.
  assert (Ids : map q_id ((queues d ++ [e]) ++ [w]) = map q_id (queues d) ++ [mx + 1; mx + 1 + 1]).
  { rewrite !map_app. simpl. rewrite <- app_assoc. reflexivity. }
  assert (Inq : forall q, In q ((queues d ++ [e]) ++ [w]) -> In q (queues d) \/ q = e \/ q = w).
  { intros q Hq. rewrite !in_app_iff in Hq. simpl in Hq. intuition. }
  constructor; simpl; auto.
  - intros m Hm. unfold qids; simpl. rewrite Ids. apply in_or_app. left. apply F; auto.
  - intros m Hm. unfold qids; simpl. rewrite Ids. apply in_or_app. left. apply O; auto.
  - destruct Q as [QN QP QE QO]. constructor.
    + rewrite Ids.
      apply (Permutation_NoDup (l := (mx+1) :: (mx+1+1) :: map q_id (queues d))).
      * change ((mx+1) :: (mx+1+1) :: map q_id (queues d)) with ([mx+1; mx+1+1] ++ map q_id (queues d)).
        apply Permutation_app_comm.
      * constructor; [|constructor; auto].
        -- intros [H|H]; [lia|]. apply Ub in H. lia.
        -- intros H. apply Ub in H. lia.
    + intros q Hq. apply Inq in Hq as [Hq|[-> | ->]]; [auto| |]; simpl; lia.
    + intros q Hq Ev. rewrite Ids. apply Inq in Hq as [Hq|[-> | ->]].
      * destruct (QE q Hq Ev). split; auto. apply in_or_app; auto.
      * simpl in Ev. apply rem2_even_iff in Ev as [j Ej]. lia.
      * simpl. split; [lia|]. apply in_or_app. right. simpl. left. lia.
    + intros q Hq Od. rewrite Ids. apply Inq in Hq as [Hq|[-> | ->]].
      * destruct (QO q Hq Od). split; auto. apply in_or_app; auto.
      * simpl. split; [lia|]. apply in_or_app. right. simpl. right. left. lia.
      * simpl in Od. apply rem2_odd_iff in Od as [j Ej]. lia.
  - intros q Hq. apply Inq in Hq as [Hq|[-> | ->]]; auto; apply metrics_fresh; auto; simpl;
      intros m Hm E; specialize (F m Hm); apply Ub in F; lia.
Qed.

Lemma update_queue_row_spec i n c dl qs qs' :
  update_queue_row i n c dl qs = Some qs' ->
  exists f, qs' = map f qs /\ forall q, q_id (f q) = q_id q /\ q_error (f q) = q_error q /\
     q_count (f q) = q_count q /\ q_size (f q) = q_size q /\ q_uncommitted (f q) = q_uncommitted q.
Proof.
  unfold update_queue_row. intros H. destruct (_ && _) in H; [discriminate|]. injection H as <-.
  eexists; split; [reflexivity|]. intros q. simpl. destruct (q_id q =? i); simpl; auto 10.
Qed.

Lemma Inv_map_queues f d :
  Inv d ->
  (forall q, q_id (f q) = q_id q /\ q_error (f q) = q_error q /\
     q_count (f q) = q_count q /\ q_size (f q) = q_size q /\ q_uncommitted (f q) = q_uncommitted q) ->
  Inv (mk_db (msgs d) (map f (queues d))).
Proof.
  intros [N F O R Q M] H.
  assert (Ids : map q_id (map f (queues d)) = map q_id (queues d)).
  { rewrite map_map. apply map_ext. intros q. apply H. }
  constructor; simpl; auto.
  - intros m Hm. unfold qids; simpl. rewrite Ids. apply F; auto.
  - intros m Hm. unfold qids; simpl. rewrite Ids. apply O; auto.
  - destruct Q as [QN QP QE QO]. constructor; rewrite ?Ids; auto.
    + intros q Hq. apply in_map_iff in Hq as [r [<- Hr]]. destruct (H r) as [-> _]. auto.
    + intros q Hq. apply in_map_iff in Hq as [r [<- Hr]]. destruct (H r) as [-> [-> _]]. auto.
    + intros q Hq. apply in_map_iff in Hq as [r [<- Hr]]. destruct (H r) as [-> [-> _]]. auto.
  - intros q Hq. apply in_map_iff in Hq as [r [<- Hr]].
    destruct (H r) as [A [_ [B [C D]]]]. unfold metrics_ok. rewrite A, B, C, D. apply M; auto.
Qed.

Lemma Inv_update_q i n c dl d d' : Inv d -> qb_update i n c dl d = Some d' -> Inv d' /\ msgs d' = msgs d.
Proof.
  intros I H. unfold qb_update in H.
  destruct (find_q (queues d) i) as [ex|]; [|injection H as <-; auto].
  destruct (update_queue_row i n c dl (queues d)) as [qs1|] eqn:E1; [|discriminate].
  destruct (update_queue_row _ _ _ _ qs1) as [qs2|] eqn:E2; [|discriminate].
  injection H as <-.
  apply update_queue_row_spec in E1 as [f [-> Hf]].
  apply update_queue_row_spec in E2 as [g [-> Hg]].
  split; auto.
  apply (Inv_map_queues g (mk_db (msgs d) (map f (queues d)))); auto.
  apply Inv_map_queues; auto.
Qed.

Lemma find_q_in qs i q : find_q qs i = Some q -> In q qs /\ q_id q = i.
Proof. intros H. apply find_some in H as [A B]. bdest. auto. Qed.

Lemma find_q_none qs i : find_q qs i = None -> ~ In i (map q_id qs).
Proof.
  intros H Hi. apply in_map_iff in Hi as [q [A B]].
  pose proof (find_none _ _ H q B) as C. simpl in C. bdest. auto.
Qed.

Lemma find_q_nodup qs q : NoDup (map q_id qs) -> In q qs -> find_q qs (q_id q) = Some q.
Proof.
  induction qs as [|x qs IH]; simpl; intros N H; [tauto|].
  inversion N; subst. unfold find_q in *. simpl.
  destruct (Z.eqb_spec (q_id x) (q_id q)) as [E|E].
  - destruct H as [->|H]; auto. exfalso. apply H2. rewrite E. apply in_map; auto.
  - destruct H as [->|H]; [tauto|]. auto.
Qed.

Definition drop_ids (is : list Z) (qs : list qrow) : list qrow :=
  filter (fun q => negb (existsb (fun i => q_id q =? i) is)) qs.

Lemma drop_ids_in is qs q : In q (drop_ids is qs) <-> In q qs /\ ~ In (q_id q) is.
Proof.
  unfold drop_ids. rewrite filter_In. split; intros [A B]; split; auto.
  - bdest. intros H. assert (existsb (fun i => q_id q =? i) is = true); [|congruence].
    apply existsb_exists. exists (q_id q). rewrite Z.eqb_refl. auto.
  - apply negb_true_iff. destruct (existsb _ _) eqn:E; auto.
    apply existsb_exists in E as [i [C D]]. bdest. subst. tauto.
Qed.

Lemma drop_ids_ids is qs i : In i (map q_id (drop_ids is qs)) <-> In i (map q_id qs) /\ ~ In i is.
Proof.
  rewrite !in_map_iff. split.
  - intros [q [<- H]]. apply drop_ids_in in H as [A B]. eauto.
  - intros [[q [<- A]] B]. exists q. rewrite drop_ids_in. auto.
Qed.

(* removing a queue together with its error queue *)
Lemma Inv_drop_pair q d :
  Inv d -> In q (queues d) -> Z.rem (q_id q) 2 = 0 ->
  (forall m, In m (msgs d) -> m_queue m <> q_id q /\ m_queue m <> q_id q - 1) ->
  Inv (mk_db (msgs d) (drop_ids [q_id q - 1; q_id q] (queues d))).
Proof.
  intros [N F O R Q M] Hq Ev Hm.
  assert (K : forall i, In i (qids d) -> i <> q_id q -> i <> q_id q - 1 ->
                In i (map q_id (drop_ids [q_id q - 1; q_id q] (queues d)))).
  { intros i A B C. apply drop_ids_ids. split; auto. simpl. intros [D|[D|[]]]; lia. }
  constructor; simpl; auto.
  - intros m H. apply K; auto; apply Hm; auto.
  - intros m H. unfold qids; simpl.
    destruct (R m H) as (_&_&_&[E|[E E']]); destruct (Hm m H) as [H1 H2].
    + rewrite <- E. apply K; auto.
    + apply K; [apply O; auto| |].
      * intro. apply H2. lia.
      * intro C. rewrite C in E'. apply rem2_even_iff in E' as [j E']. apply rem2_even_iff in Ev as [k Ev]. lia.
  - destruct Q as [QN QP QE QO]. constructor.
    + unfold drop_ids. clear -QN. induction (queues d) as [|x l IH]; simpl; [constructor|].
      inversion QN; subst. destruct (negb _); simpl; auto. constructor; auto.
      intro Hc. apply H1. apply in_map_iff in Hc as [y [A B]]. apply filter_In in B as [B _].
      rewrite <- A. apply in_map; auto.
    + intros x H. apply drop_ids_in in H as [A B]. auto.
    + intros x H E. apply drop_ids_in in H as [A B]. destruct (QE x A E) as [C D]. split; auto.
      apply K; auto.
      * intro G. apply rem2_even_iff in E as [j E]. apply rem2_even_iff in Ev as [k Ev]. lia.
      * intro G. apply B. simpl. right; left. lia.
    + intros x H E. apply drop_ids_in in H as [A B]. destruct (QO x A E) as [C D]. split; auto.
      apply K; auto.
      * intro G. apply B. simpl. left. lia.
      * intro G. apply rem2_odd_iff in E as [j E]. apply rem2_even_iff in Ev as [k Ev]. lia.
  - intros x H. apply drop_ids_in in H as [A _]. auto.
Qed.

Lemma drop_drop i j qs :
  filter (fun q => negb (q_id q =? j)) (filter (fun q => negb (q_id q =? i)) qs) = drop_ids [i; j] qs.
Proof.
  unfold drop_ids. induction qs as [|q qs IH]; simpl; auto.
  destruct (q_id q =? i) eqn:A; simpl; auto.
  destruct (q_id q =? j) eqn:B; simpl; auto. rewrite IH; auto.
Qed.

Lemma remove_queue_spec i d d' :
  Inv d -> (Z.rem i 2 = 0 \/ ~ In i (qids d)) -> qb_remove_queue i d = Some d' ->
  Inv d' /\ msgs d' = msgs d /\
  (forall j, In j (qids d') -> In j (qids d)) /\
  ~ In i (qids d') /\ ~ (Z.rem i 2 = 0 /\ In i (qids d) /\ In (i - 1) (qids d')).
Proof.
  intros I Ei H. unfold qb_remove_queue in H.
  destruct (find_q (queues d) i) as [q|] eqn:Fq.
  - apply find_q_in in Fq as [Hq Hi].
    destruct Ei as [Ev|Ab]; [|exfalso; apply Ab; subst; apply in_map; auto].
    assert (Ev' : Z.rem (q_id q) 2 = 0) by (rewrite Hi; auto).
    destruct (qo_even _ (inv_qs _ I) q Hq Ev') as [Ee Hee].
    unfold delete_queue_row in H. simpl in H. rewrite Ee in H.
    destruct (fk_ok _) eqn:F1 in H; [|discriminate].
    destruct (fk_ok _) eqn:F2 in H; [|discriminate]. injection H as <-.
    cbn [msgs queues] in *. rewrite drop_drop in *.
    assert (FK : forall m, In m (msgs d) -> In (m_queue m) (map q_id (drop_ids [q_id q - 1; q_id q] (queues d)))).
    { intros m Hm. exact (proj1 (fk_ok_in _) F2 m Hm). }
    assert (I' : Inv (mk_db (msgs d) (drop_ids [q_id q - 1; q_id q] (queues d)))).
    { apply Inv_drop_pair; auto.
      intros m Hm. specialize (FK m Hm). apply drop_ids_ids in FK as [_ FK]. simpl in FK.
      split; intro G; apply FK; rewrite G; auto. }
    split; [exact I'|]. split; [reflexivity|]. split; [|split].
    + intros j Hj. unfold qids in Hj; simpl in Hj. apply drop_ids_ids in Hj. tauto.
    + unfold qids; simpl. rewrite drop_ids_ids. intros [_ G]. apply G. simpl. auto.
    + intros (_&_&G). unfold qids in G; simpl in G. apply drop_ids_ids in G as [_ G]. apply G. simpl. left. lia.
  - injection H as <-. split; auto. split; auto. split; auto. apply find_q_none in Fq. split; auto.
    intros (_&G&_). auto.
Qed.

Lemma fold_opt_ind {A S} (f : A -> S -> option S) (P : S -> Prop) l s s' :
  (forall a x y, In a l -> P x -> f a x = Some y -> P y) -> P s -> fold_opt f l s = Some s' -> P s'.
Proof.
  revert s. induction l as [|a l IH]; simpl; intros s H Hs E.
  - injection E as <-; auto.
  - destruct (f a s) as [s1|] eqn:Fa; [|discriminate].
    apply (IH s1); auto. intros x y z Hx. apply H; auto. apply (H a s s1); auto.
Qed.

Lemma fold_opt_app {A S} (f : A -> S -> option S) l l' s :
  fold_opt f (l ++ l') s = match fold_opt f l s with None => None | Some s' => fold_opt f l' s' end.
Proof. revert s. induction l; simpl; intros s; auto. destruct (f a s); auto. Qed.

Lemma empty_pairs_spec zs z e :
  In (z, e) (empty_pairs zs) -> exists q, In q zs /\ q_id q = z /\ q_error q = e /\ e <> 0.
Proof.
  unfold empty_pairs. rewrite in_flat_map. intros [q [Hq H]].
  destruct (Z.eqb_spec (q_error q) 0); [destruct H|].
  destruct (find_q zs (q_error q)) as [x|] eqn:E; [|destruct H].
  destruct (_ || _); [destruct H|]. destruct H as [H|[]]. injection H as <- <-.
  apply find_q_in in E as [_ E]. exists q. rewrite E. auto.
Qed.

(* removing the zombie pairs: first all queues (with their error queues), then the error queues, which are gone *)
Lemma remove_pairs_spec pairs d d' :
  Inv d ->
  (forall z e, In (z, e) pairs -> Z.rem z 2 = 0 /\ e = z - 1 /\ In z (qids d)) ->
  fold_opt qb_remove_queue (map fst pairs ++ map snd pairs) d = Some d' ->
  Inv d' /\ msgs d' = msgs d.
Proof.
  intros I Hp H. rewrite fold_opt_app in H.
  destruct (fold_opt qb_remove_queue (map fst pairs) d) as [d1|] eqn:E1; [|discriminate].
  assert (S1 : forall l x y, (forall z, In z l -> Z.rem z 2 = 0) -> Inv x -> fold_opt qb_remove_queue l x = Some y ->
     Inv y /\ msgs y = msgs x /\ (forall j, In j (qids y) -> In j (qids x)) /\
     (forall z, In z l -> In z (qids x) -> ~ In (z - 1) (qids y))).
  { clear. induction l as [|a l IH]; simpl; intros x y Hl Ix Hf.
    - injection Hf as <-. split; [auto|]. split; [auto|]. split; [auto|]. intros z [].
    - destruct (qb_remove_queue a x) as [x1|] eqn:Ea; [|discriminate].
      apply remove_queue_spec in Ea as (I1&M1&Q1&G1&G2); auto.
      apply IH in Hf as (I2&M2&Q2&G3); auto.
      split; auto. split; [congruence|]. split; auto.
      intros z [->|Hz] Hx Hy.
      + apply G2. auto.
      + destruct (in_dec Z.eq_dec z (qids x1)) as [Hz1|Hz1]; [eapply G3; eauto|].
        (* z vanished already: its pair invariant says z-1 vanished too *)
        apply Q2 in Hy. unfold qids in Hy. apply in_map_iff in Hy as [r [Hr1 Hr2]].
        assert (Od : Z.rem (q_id r) 2 <> 0).
        { rewrite Hr1. apply rem2_odd_iff. specialize (Hl z (or_intror Hz)). apply rem2_even_iff in Hl as [k ->].
          exists (k - 1). lia. }
        destruct (qo_odd _ (inv_qs _ I1) r Hr2 Od) as [_ G]. apply Hz1.
        replace z with (q_id r + 1) by lia. exact G. }
  apply S1 in E1 as (I1&M1&Q1&G1); auto.
  2:{ intros z Hz. apply in_map_iff in Hz as [[a b] [<- Hz]]. apply Hp in Hz. tauto. }
  assert (S2 : forall l x y, (forall e, In e l -> ~ In e (qids x)) -> fold_opt qb_remove_queue l x = Some y -> y = x).
  { clear. induction l as [|a l IH]; simpl; intros x y Hl Hf; [congruence|].
    unfold qb_remove_queue in Hf at 1.
    destruct (find_q (queues x) a) as [q|] eqn:E.
    - apply find_q_in in E as [E1 E2]. exfalso. apply (Hl a); auto. rewrite <- E2. apply in_map; auto.
    - apply IH in Hf; auto. }
  apply S2 in H.
  - subst. auto.
  - intros e He. apply in_map_iff in He as [[a b] [<- He]]. simpl.
    pose proof (Hp _ _ He) as (A&B&C). subst b. apply (G1 a); auto.
    apply in_map_iff. exists (a, a - 1). auto.
Qed.

Lemma Inv_configure ws d d' : Inv d -> qb_configure ws d = Some d' -> Inv d' /\ msgs d' = msgs d.
Proof.
  intros I H. unfold qb_configure in H.
  destruct (fold_opt qb_remove_queue _ d) as [d1|] eqn:E1; [|discriminate].
  destruct (fold_opt _ _ d1) as [d2|] eqn:E2 in H; [|discriminate].
  apply remove_pairs_spec in E1 as [I1 M1]; auto.
  2:{ intros z e Hp. apply empty_pairs_spec in Hp as (q&Hq&<-&He&Hn). apply filter_In in Hq as [Hq _].
      destruct (Z.eq_dec (Z.rem (q_id q) 2) 0) as [Ev|Od].
      - destruct (qo_even _ (inv_qs _ I) q Hq Ev) as [X _]. split; auto. split; [lia|]. apply in_map; auto.
      - destruct (qo_odd _ (inv_qs _ I) q Hq Od) as [X _]. lia. }
  assert (P2 : Inv d2 /\ msgs d2 = msgs d).
  { eapply (fold_opt_ind _ (fun x => Inv x /\ msgs x = msgs d)); [|split; [exact I1|exact M1]|exact E2].
    intros w x y _ [A B] Hf. destruct (find_name _ _).
    - apply Inv_update_q in Hf as [C D]; auto. rewrite D. auto.
    - injection Hf as <-. auto. }
  destruct P2 as [I2 M2].
  eapply (fold_opt_ind _ (fun x => Inv x /\ msgs x = msgs d)); [|split; [exact I2|exact M2]|exact H].
  intros w x y _ [A B] Hf. split; [eapply Inv_create; eauto|].
  unfold qb_create in Hf. destruct (insert_queue _ _ _ _ _) as [[a b]|] in Hf; [|discriminate].
  destruct (insert_queue _ _ _ _ _) as [[a' b']|] in Hf; [|discriminate]. injection Hf as <-. auto.
Qed.

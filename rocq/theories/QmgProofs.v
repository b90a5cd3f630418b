(* The queue manager: lists, what the parts of a step leave alone, and the entities. *)
From Coq Require Import ZArith List Bool Lia Permutation Sorting.Sorted.
From Verif Require Import QmgModel QmgSpec.
Import ListNotations.
Local Open Scope Z_scope.

(* ---- lists ---- *)
Lemma inputs_app h t : inputs (h ++ t) = inputs h ++ inputs t.
Proof. apply map_app. Qed.
Lemma effects_app h t : effects (h ++ t) = effects h ++ effects t.
Proof. unfold effects. apply flat_map_app. Qed.
Lemma inputs_snoc h i ev : inputs (h ++ [(i, ev)]) = inputs h ++ [i].
Proof. apply inputs_app. Qed.
Lemma effects_snoc h i ev : effects (h ++ [(i, ev)]) = effects h ++ ev.
Proof. rewrite effects_app. cbn. now rewrite app_nil_r. Qed.
Lemma in_snoc {A} (x y : A) l : In x (l ++ [y]) <-> In x l \/ x = y.
Proof. rewrite in_app_iff. cbn. split; intros [H|H]; auto. destruct H as [->|[]]; auto. Qed.
Lemma snoc_inj {A} (h h' : list A) x y : h ++ [x] = h' ++ [y] -> h = h' /\ x = y.
Proof. apply app_inj_tail. Qed.
Lemma insert_perm x l : Permutation (insert x l) (x :: l).
Proof. induction l as [|y l IH]; cbn [insert]; auto. destruct (i_order x <? i_order y)%nat; auto. eapply perm_trans; [apply perm_skip, IH|apply perm_swap]. Qed.
Lemma insert_in x l y : In y (insert x l) <-> y = x \/ In y l.
Proof. split; intro H. - apply (Permutation_in _ (insert_perm x l)) in H. cbn in H. intuition. - apply (Permutation_in _ (Permutation_sym (insert_perm x l))). cbn. intuition. Qed.
Definition before (a b : inst) : Prop := (i_order a <= i_order b)%nat.
Lemma insert_sorted x l : StronglySorted before l -> StronglySorted before (insert x l).
Proof.
  induction l as [|y l IH]; intro H; cbn [insert]; [constructor; auto|]. apply StronglySorted_inv in H as [H F]. destruct (i_order x <? i_order y)%nat eqn:E.
  - apply Nat.ltb_lt in E. constructor; [constructor; auto|]. constructor; [unfold before; lia|]. eapply Forall_impl; [|exact F]. unfold before; intros; lia.
  - apply Nat.ltb_ge in E. constructor; auto. apply Forall_forall. intros z Z. apply insert_in in Z as [->|Z]; [exact E|]. rewrite Forall_forall in F. auto.
Qed.
Lemma fold_insert_perm l : forall a, Permutation (fold_left (fun a x => insert x a) l a) (l ++ a).
Proof. induction l as [|x l IH]; intro a; cbn; auto. eapply perm_trans; [apply IH|]. eapply perm_trans; [apply Permutation_app_head, insert_perm|]. apply Permutation_sym, Permutation_middle. Qed.
Lemma sort_perm l : Permutation (sort l) l.
Proof. unfold sort. eapply perm_trans; [apply fold_insert_perm|]. rewrite app_nil_r. auto. Qed.
Lemma fold_insert_sorted l : forall a, StronglySorted before a -> StronglySorted before (fold_left (fun a x => insert x a) l a).
Proof. induction l as [|x l IH]; intros a H; cbn; auto. apply IH, insert_sorted, H. Qed.
Lemma sort_sorted l : StronglySorted before (sort l).
Proof. apply fold_insert_sorted. constructor. Qed.
Lemma filter_sorted (f : inst -> bool) l : StronglySorted before l -> StronglySorted before (filter f l).
Proof.
  induction l as [|y l IH]; intro H; cbn; auto. apply StronglySorted_inv in H as [H F]. destruct (f y); auto. constructor; auto. apply Forall_forall. intros z Z. apply filter_In in Z as [Z _]. rewrite Forall_forall in F. auto.
Qed.
Lemma find_least (f : inst -> bool) l x : StronglySorted before l -> find f l = Some x -> forall y, In y l -> f y = true -> before x y.
Proof.
  induction l as [|z l IH]; intros H E y Y F; cbn in *; [discriminate|]. apply StronglySorted_inv in H as [H A]. destruct (f z) eqn:Z.
  - injection E as <-. destruct Y as [->|Y]; [unfold before; lia|]. rewrite Forall_forall in A. auto.
  - destruct Y as [->|Y]; [congruence|]. auto.
Qed.
Lemma existsb_eqb (k : Z) l : existsb (Z.eqb k) l = true <-> In k l.
Proof. rewrite existsb_exists. split. - intros (x & I & E). apply Z.eqb_eq in E. now subst. - intro I. exists k. now rewrite Z.eqb_refl. Qed.
Lemma remove_first_in {A} (f : A -> bool) l x : In x (remove_first f l) -> In x l.
Proof. induction l as [|y l IH]; cbn; auto. destruct (f y); cbn; intuition. Qed.
Lemma in_remove_first {A} (f : A -> bool) l x : In x l -> f x = false -> In x (remove_first f l).
Proof. induction l as [|y l IH]; cbn; auto. intros [->|H] F; [rewrite F; now left|]. destruct (f y); [auto|right; auto]. Qed.
Lemma find_some_iff {A} (f : A -> bool) l : find f l = None <-> forall x, In x l -> f x = false.
Proof. split; [apply find_none|]. induction l as [|y l IH]; cbn; auto. intro H. rewrite (H y) by auto. apply IH. intros; apply H; auto. Qed.

(* ---- what is left alone ---- *)
Definition same_rest (a b : state) : Prop := s_run a = s_run b /\ s_queues a = s_queues b /\ s_lookups a = s_lookups b /\ s_remotes a = s_remotes b /\ s_lost a = s_lost b.
Lemma same_rest_refl a : same_rest a a.
Proof. unfold same_rest. auto. Qed.
Lemma same_rest_trans a b c : same_rest a b -> same_rest b c -> same_rest a c.
Proof. unfold same_rest. intuition congruence. Qed.
Lemma with_entities_rest f l s : same_rest (with_entities f l s) s.
Proof. destruct f; unfold same_rest; auto. Qed.
Definition plain (e : effect) : bool := match e with Spawn _ _ _ | Stop _ _ _ | Configure _ _ _ _ | Updated _ _ => true | _ => false end.
Definition all_plain (ev : list effect) : Prop := forall e, In e ev -> plain e = true.
Lemma all_plain_app a b : all_plain a -> all_plain b -> all_plain (a ++ b).
Proof. intros A B e I. apply in_app_iff in I as [I|I]; auto. Qed.
Lemma all_plain_nil : all_plain [].
Proof. intros e []. Qed.
Lemma spawn_rest f l : forall s, same_rest (fst (fst (spawn f l s))) s /\ all_plain (snd (fst (spawn f l s))).
Proof.
  induction l as [|c l IH]; intro s; cbn; [split; [apply same_rest_refl|apply all_plain_nil]|].
  specialize (IH (with_entities f (entities f s ++ [Entity c (s_next s) 0 1]) (with_next (s_next s + 1) s))).
  destruct (spawn f l _) as [[s' ev] ps]. cbn in *. destruct IH as [A B]. split.
  - eapply same_rest_trans; [exact A|]. eapply same_rest_trans; [apply with_entities_rest|]. unfold same_rest. auto.
  - intros e [<-|I]; auto.
Qed.
Lemma start_rest t s : same_rest (fst (fst (start t s))) s /\ all_plain (snd (fst (start t s))).
Proof.
  destruct t as [f l|f l|f l|p k]; cbn.
  - apply spawn_rest.
  - split; [apply with_entities_rest|]. intros e I. apply in_map_iff in I as (x & <- & _). reflexivity.
  - split; [apply same_rest_refl|]. intros e I. apply in_map_iff in I as (x & <- & I). apply in_flat_map in I as (c & _ & I). unfold modify_one in I. destruct (find _ _); [|destruct I]. destruct I as [<-|[]]. reflexivity.
  - split; [apply same_rest_refl|]. intros e [<-|[]]. reflexivity.
Qed.
Lemma with_coord_rest a t s : same_rest (with_coord a t s) s.
Proof. unfold same_rest. auto. Qed.
Lemma advance_rest ts m : forall s, same_rest (fst (advance ts m s)) s /\ all_plain (snd (advance ts m s)).
Proof.
  induction ts as [|t ts IH]; intro s; cbn; [split; [apply with_coord_rest|apply all_plain_nil]|].
  destruct (start_rest t s) as [A B]. destruct (start t s) as [[s1 ev] ps]. cbn in A, B. destruct (handle t m ps).
  - destruct (IH s1) as [C D]. destruct (advance ts m s1) as [s2 ev2]. cbn in *. split; [eapply same_rest_trans; eauto|apply all_plain_app; auto].
  - cbn. split; [eapply same_rest_trans; [apply with_coord_rest|auto]|auto].
Qed.
Lemma coordinate_rest m s : same_rest (fst (coordinate m s)) s /\ all_plain (snd (coordinate m s)).
Proof.
  unfold coordinate. destruct (s_active s) as [[t ps]|]; [|split; [apply same_rest_refl|apply all_plain_nil]]. destruct (handle t m ps); [apply advance_rest|]. split; [apply with_coord_rest|apply all_plain_nil].
Qed.
Lemma andthen_rest t s : same_rest (fst (andthen t s)) s /\ all_plain (snd (andthen t s)).
Proof.
  unfold andthen. destruct (s_active s); [split; [apply with_coord_rest|apply all_plain_nil]|]. destruct (start_rest t s) as [A B]. destruct (start t s) as [[s1 ev] ps]. cbn in *. split; [eapply same_rest_trans; [apply with_coord_rest|auto]|auto].
Qed.
Lemma then_all_rest ts : forall s, same_rest (fst (then_all ts s)) s /\ all_plain (snd (then_all ts s)).
Proof.
  induction ts as [|t ts IH]; intro s; cbn; [split; [apply same_rest_refl|apply all_plain_nil]|]. destruct (andthen_rest t s) as [A B]. destruct (andthen t s) as [s1 e1]. cbn in *. destruct (IH s1) as [C D]. destruct (then_all ts s1) as [s2 e2]. cbn in *.
  split; [eapply same_rest_trans; eauto|apply all_plain_app; auto].
Qed.

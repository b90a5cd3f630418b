(* The discovery: the contents, and what services are called. *)
From Coq Require Import ZArith List Bool Lia.
From Verif Require Import DscModel DscSpec.
Import ListNotations.
Local Open Scope Z_scope.

Lemma inputs_app h t : inputs (h ++ t) = inputs h ++ inputs t.
Proof. apply map_app. Qed.
Lemma effects_app h t : effects (h ++ t) = effects h ++ effects t.
Proof. apply flat_map_app. Qed.
Lemma inputs_snoc h i ev : inputs (h ++ [(i, ev)]) = inputs h ++ [i].
Proof. apply inputs_app. Qed.
Lemma effects_snoc h i ev : effects (h ++ [(i, ev)]) = effects h ++ ev.
Proof. rewrite effects_app. cbn. now rewrite app_nil_r. Qed.
Lemma in_snoc {A} (x y : A) l : In x (l ++ [y]) <-> In x l \/ x = y.
Proof. rewrite in_app_iff. cbn. intuition congruence. Qed.
Lemma snoc_inj {A} (h h' : list A) x y : h ++ [x] = h' ++ [y] -> h = h' /\ x = y.
Proof. apply app_inj_tail. Qed.
Lemma existsb_eqb (k : Z) l : existsb (Z.eqb k) l = true <-> In k l.
Proof. rewrite existsb_exists. split; [intros (x & I & E); apply Z.eqb_eq in E; now subst|intro I; exists k; split; [auto|apply Z.eqb_refl]]. Qed.

Lemma name_eqb_eq a b : name_eqb a b = true <-> a = b.
Proof. destruct a, b; cbn; rewrite ?Z.eqb_eq; split; intro H; try discriminate; congruence. Qed.
Lemma name_eqb_refl a : name_eqb a a = true.
Proof. now apply name_eqb_eq. Qed.
Lemma name_eqb_neq a b : name_eqb a b = false <-> a <> b.
Proof. rewrite <- name_eqb_eq. destruct (name_eqb a b); split; congruence. Qed.
Lemma mem_in n l : mem n l = true <-> In n l.
Proof. unfold mem. rewrite existsb_exists. split; [intros (x & I & E); apply name_eqb_eq in E; now subst|intro I; exists n; split; [auto|apply name_eqb_refl]]. Qed.
Lemma union_in n b : forall a, In n (union a b) <-> In n a \/ In n b.
Proof.
  induction b as [|x b IH]; intro a; [cbn; tauto|]. change (union a (x :: b)) with (union (if mem x a then a else a ++ [x]) b). rewrite IH. cbn [In]. destruct (mem x a) eqn:M; [apply mem_in in M|].
  - split; [tauto|]. intros [H|[->|H]]; auto.
  - rewrite in_snoc. intuition.
Qed.
Lemma has_in n c : has n c = true <-> In n (map fst c).
Proof.
  unfold has. rewrite existsb_exists, in_map_iff. split; intros (x & A & B).
  - apply name_eqb_eq in B. eauto. - exists x. split; [auto|]. apply name_eqb_eq. auto.
Qed.
Lemma has_not n c : has n c = false <-> ~ In n (map fst c).
Proof. rewrite <- has_in. destruct (has n c); split; congruence. Qed.
Lemma insert_in y x l : In y (insert x l) -> y = x \/ In y l.
Proof.
  induction l as [|z l IH]; cbn; [intuition|]. destruct (name_eqb (fst x) (fst z)); [destruct (snd x <? snd z); [|destruct (snd x =? snd z)]|]; cbn; try (intuition; fail); intros [H|H]; auto; destruct (IH H); auto.
Qed.
Lemma insert_keeps y x l : In y l -> In y (insert x l).
Proof.
  induction l as [|z l IH]; cbn; [tauto|]. destruct (name_eqb (fst x) (fst z)); [destruct (snd x <? snd z); [|destruct (snd x =? snd z)]|]; cbn; try tauto; intros [H|H]; auto.
Qed.
Lemma insert_name x l : In (fst x) (map fst (insert x l)).
Proof.
  induction l as [|z l IH]; cbn; [tauto|]. destruct (name_eqb (fst x) (fst z)) eqn:N; [apply name_eqb_eq in N; destruct (snd x <? snd z); [|destruct (snd x =? snd z)]|]; cbn; rewrite ?N; tauto.
Qed.
Lemma add_in c x y : In y (add c x) -> In y c \/ y = x.
Proof. unfold add. destruct (fst x). - destruct (has _ c); [auto|]. rewrite in_snoc. tauto. - intro H. apply insert_in in H. tauto. Qed.
Lemma add_keeps c x y : In y c -> In y (add c x).
Proof. unfold add. destruct (fst x). - destruct (has _ c); [auto|]. rewrite in_snoc. tauto. - apply insert_keeps. Qed.
Lemma add_name c x : In (fst x) (map fst (add c x)).
Proof. unfold add. destruct (fst x) eqn:F. - destruct (has (Svc z) c) eqn:G; [now apply has_in|]. rewrite map_app, in_app_iff. cbn. rewrite F. tauto. - rewrite <- F. apply insert_name. Qed.
Lemma plus_in b : forall a y, In y (plus a b) -> In y a \/ In y b.
Proof. induction b as [|x b IH]; intros a y H; cbn in *; [tauto|]. apply IH in H as [H|H]; [|tauto]. apply add_in in H. intuition. Qed.
Lemma plus_keeps b : forall a y, In y a -> In y (plus a b).
Proof. induction b as [|x b IH]; intros a y H; cbn in *; [tauto|]. apply IH. now apply add_keeps. Qed.
Lemma plus_names b n : forall a, In n (map fst (plus a b)) <-> In n (map fst a) \/ In n (map fst b).
Proof.
  induction b as [|x b IH]; intro a; cbn; [tauto|]. fold (plus (add a x) b). rewrite IH. split; [intros [H|H]; [|tauto]|intros [H|[H|H]]; [| |tauto]]; auto.
  - apply in_map_iff in H as (y & <- & H). apply add_in in H as [H| ->]; [left; now apply in_map|tauto].
  - left. apply in_map_iff in H as (y & <- & H). apply in_map. now apply add_keeps.
  - left. rewrite <- H. apply add_name.
Qed.
Lemma get_some n c x : get n c = Some x -> In x c /\ fst x = n.
Proof. unfold get. intro F. apply find_some in F as [I E]. apply name_eqb_eq in E. auto. Qed.
Lemma get_none n c : get n c = None <-> ~ In n (map fst c).
Proof. rewrite <- has_not. unfold get, has. induction c as [|x c IH]; cbn; [tauto|]. destruct (name_eqb (fst x) n); cbn; [split; discriminate|exact IH]. Qed.
Lemma select_in w c x : In x (select w c) -> In x c /\ In (fst x) w.
Proof. unfold select. rewrite in_flat_map. intros (n & I & J). destruct (get n c) as [y|] eqn:G; [|destruct J]. destruct J as [<-|[]]. apply get_some in G as [A B]. rewrite B. auto. Qed.
Lemma select_names w c n : In n (map fst (select w c)) <-> In n w /\ In n (map fst c).
Proof.
  split.
  - intro H. apply in_map_iff in H as (x & <- & H). apply select_in in H as [A B]. split; [auto|now apply in_map].
  - intros [A B]. destruct (get n c) as [x|] eqn:G; [|now apply get_none in G]. apply in_map_iff. exists x. pose proof (get_some _ _ _ G) as [_ E]. split; [auto|]. apply in_flat_map. exists n. rewrite G. cbn. auto.
Qed.
Lemma minus_in n w c : In n (minus w c) <-> In n w /\ ~ In n (map fst c).
Proof. unfold minus. rewrite filter_In, negb_true_iff, has_not. tauto. Qed.
Lemma includes_iff w c : includes w c = true <-> forall n, In n w -> In n (map fst c).
Proof. unfold includes. rewrite forallb_forall. split; intros H n I; apply has_in; auto. Qed.

(* the configuration *)
Lemma find_rev {A} (f : A -> bool) l x : find f (rev l) = Some x <-> exists a b, l = a ++ x :: b /\ f x = true /\ forall y, In y b -> f y = false.
Proof.
  revert x. induction l as [|z l IH] using rev_ind; intro x; cbn.
  - split; [discriminate|]. intros (a & b & E & _). destruct a; discriminate.
  - rewrite rev_app_distr. cbn. destruct (f z) eqn:F.
    + split.
      * intro H. injection H as <-. exists l, []. split; [auto|]. split; [auto|]. intros y [].
      * intros (a & b & E & Fx & N). destruct b as [|y b] using rev_ind; [apply app_inj_tail in E as [_ E]; congruence|]. rewrite app_comm_cons, app_assoc in E. apply app_inj_tail in E as [_ ->]. rewrite N in F; [discriminate|apply in_or_app; cbn; auto].
    + rewrite IH. split; intros (a & b & E & Fx & N).
      * exists a, (b ++ [z]). split; [rewrite E, app_comm_cons, app_assoc; auto|]. split; [auto|]. intros y I. apply in_snoc in I as [I| ->]; auto.
      * destruct b as [|y b _] using rev_ind; [apply app_inj_tail in E as [_ E]; congruence|]. rewrite app_comm_cons, app_assoc in E. apply app_inj_tail in E as [E ->]. exists a, b. split; [auto|]. split; [auto|]. intros y' I. apply N. apply in_or_app. auto.
Qed.
Lemma find_rev_none {A} (f : A -> bool) l : find f (rev l) = None <-> forall x, In x l -> f x = false.
Proof.
  split; [intros H x I; apply (find_none _ _ H); now apply in_rev in I|]. intro H. destruct (find f (rev l)) as [x|] eqn:F; auto. apply find_some in F as [I E]. apply in_rev in I. rewrite (H x I) in E. discriminate.
Qed.
Lemma routes_some c z rs : routes c z = Some rs <-> routed c z rs.
Proof.
  unfold routes, routed. destruct (find _ (rev c)) as [[z' rs']|] eqn:F; cbn.
  - apply find_rev in F as (a & b & E & G & N). cbn in G. apply Z.eqb_eq in G as ->. assert (N' : ~ In z (map fst b)). { intro I. apply in_map_iff in I as (y & <- & I). specialize (N y I). cbn in N. rewrite Z.eqb_refl in N. discriminate. }
    split; [intro H; injection H as <-; eauto|]. intros (a' & b' & E' & N2). f_equal.
    assert (Hx : find (fun x => fst x =? z) (rev c) = Some (z, rs')). { apply find_rev. exists a, b. split; [auto|]. split; [cbn; apply Z.eqb_refl|]. intros y I. apply Z.eqb_neq. intro Q. apply N'. rewrite <- Q. now apply in_map. }
    assert (Hy : find (fun x => fst x =? z) (rev c) = Some (z, rs)). { apply find_rev. exists a', b'. split; [auto|]. split; [cbn; apply Z.eqb_refl|]. intros y I. apply Z.eqb_neq. intro Q. apply N2. rewrite <- Q. now apply in_map. }
    congruence.
  - split; [discriminate|]. intros (a & b & E & _). rewrite find_rev_none in F. specialize (F (z, rs)). cbn in F. rewrite Z.eqb_refl in F. assert (true = false); [|discriminate]. apply F. rewrite E. apply in_or_app. cbn. auto.
Qed.
Lemma routes_none c z : routes c z = None <-> ~ In z (map fst c).
Proof.
  unfold routes. destruct (find _ (rev c)) as [[z' rs']|] eqn:F; cbn.
  - split; [discriminate|]. intro N. exfalso. apply N. apply find_some in F as [I E]. cbn in E. apply Z.eqb_eq in E as ->. apply in_rev in I. now apply (in_map fst) in I.
  - split; [|auto]. intros _ I. apply in_map_iff in I as (x & <- & I). rewrite find_rev_none in F. specialize (F x I). cbn in F. rewrite Z.eqb_refl in F. discriminate.
Qed.
Lemma to_origin_official c n : official c n (to_origin c n).
Proof.
  destruct n as [z|z]; cbn; [|auto]. unfold origin. destruct (find _ (rev c)) as [[s rs]|] eqn:F.
  - left. apply find_rev in F as (a & b & E & G & N). exists a, b, s, rs. cbn in *. split; [auto|]. split; [now apply existsb_eqb|]. split; [|auto]. intros x I J. apply existsb_eqb in J. rewrite (N x I) in J. discriminate.
  - right. split; [|auto]. intros x I J. rewrite find_rev_none in F. apply existsb_eqb in J. rewrite (F x I) in J. discriminate.
Qed.
Lemma called_iff c o x n : In n (map fst (to_routes c (o, x))) <-> called c o n.
Proof.
  unfold to_routes, called. cbn. destruct o as [z|z]; cbn; [|intuition congruence]. destruct (routes c z) as [rs|] eqn:R.
  - apply routes_some in R as R'. rewrite map_map. cbn. rewrite in_map_iff. split.
    + intros (r & <- & I). left. eauto.
    + intros [(rs' & r & Q & I & ->)|[N _]]; [|exfalso; apply routes_none in N; congruence]. apply routes_some in Q. rewrite R in Q. injection Q as <-. eauto.
  - apply routes_none in R as N. cbn. split; [intros [H|[]]; auto|]. intros [(rs & r & Q & _)|[_ ->]]; [apply routes_some in Q; congruence|auto].
Qed.
Lemma to_routes_snd c y x : In x (to_routes c y) -> snd x = snd y.
Proof. unfold to_routes. destruct (fst y) as [z|z]; [destruct (routes c z)|]; cbn; try (intros [<-|[]]; auto). intro I. apply in_map_iff in I as (r & <- & _). auto. Qed.
Lemma back_names c l n : In n (map fst (back c l)) <-> exists o, In o (map fst l) /\ called c o n.
Proof.
  unfold back. rewrite plus_names. cbn. split.
  - intros [[]|H]. apply in_map_iff in H as (x & <- & H). apply in_flat_map in H as ([o y] & I & H). exists o. split; [now apply (in_map fst) in I|]. rewrite <- (called_iff c o y). now apply in_map.
  - intros (o & I & C). right. apply in_map_iff in I as ([o' y] & E & I). cbn in E. subst o'. rewrite <- (called_iff c o y) in C. apply in_map_iff in C as (x & <- & C). apply in_map, in_flat_map. eauto.
Qed.
Lemma back_in c l n x : In (n, x) (back c l) -> exists o, In (o, x) l /\ called c o n.
Proof.
  unfold back. intro H. apply plus_in in H as [[]|H]. apply in_flat_map in H as ([o y] & I & H). pose proof (to_routes_snd _ _ _ H) as E. cbn in E. subst y. exists o. split; [auto|]. rewrite <- (called_iff c o x). now apply (in_map fst) in H.
Qed.
Lemma normal_in c w o : In o (normal c w) <-> exists n, In n w /\ o = to_origin c n.
Proof. unfold normal. rewrite union_in. cbn. rewrite in_map_iff. split; [intros [[]|(n & <- & I)]; eauto|intros (n & I & ->); right; eauto]. Qed.

(* the state and the history *)
Lemma last_config_app l : forall l' c, last_config (l ++ l') c = last_config l' (last_config l c).
Proof. induction l as [|i l IH]; intros; cbn; [auto|]. destruct i; auto. Qed.
Lemma configured_snoc h i ev : configured (h ++ [(i, ev)]) = match i with Begin _ c | Configure _ _ c => c | _ => configured h end.
Proof. unfold configured. rewrite inputs_snoc, last_config_app. now destruct i. Qed.

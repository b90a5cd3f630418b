(* Lemmas about the containers of SvcModel. *)
From Coq Require Import ZArith List Bool Lia.
From Verif Require Import SvcModel.
Import ListNotations.
Local Open Scope Z_scope.

Lemma get_nil {A} i : get (A:=A) [] i = None.
Proof. unfold get. destruct i; reflexivity. Qed.
Lemma get_O {A} (x : option A) l : get (x :: l) 0 = x.
Proof. unfold get. cbn. destruct x; reflexivity. Qed.
Lemma get_S {A} (x : option A) l i : get (x :: l) (S i) = get l i.
Proof. reflexivity. Qed.

Lemma get_put {A} i (x : option A) j l : (i < length l)%nat -> get (put i x l) j = if Nat.eqb j i then x else get l j.
Proof.
  revert i j. induction l as [|y l IH]; intros i j Hi; [cbn in Hi; lia|].
  destruct i as [|i]; destruct j as [|j]; cbn [put].
  - rewrite get_O. reflexivity.
  - rewrite !get_S. reflexivity.
  - rewrite !get_O. reflexivity.
  - rewrite !get_S. rewrite IH by (cbn in Hi; lia). reflexivity.
Qed.
Lemma get_put_none {A} i j (l : list (option A)) : get (put i None l) j = if Nat.eqb j i then None else get l j.
Proof.
  revert i j. induction l as [|y l IH]; intros i j.
  - cbn [put]. rewrite get_nil. destruct (Nat.eqb j i); reflexivity.
  - destruct i as [|i]; destruct j as [|j]; cbn [put].
    + rewrite get_O. reflexivity.
    + rewrite !get_S. reflexivity.
    + rewrite !get_O. reflexivity.
    + rewrite !get_S. rewrite IH. reflexivity.
Qed.
Lemma get_lt {A} (l : list (option A)) i x : get l i = Some x -> (i < length l)%nat.
Proof.
  unfold get. intros H. apply nth_error_Some. destruct (nth_error l i); [congruence|discriminate].
Qed.
Lemma get_upd {A} i (f : A -> A) j l : get (upd i f l) j = if Nat.eqb j i then option_map f (get l i) else get l j.
Proof.
  unfold upd. destruct (get l i) eqn:E.
  - rewrite get_put by (eapply get_lt; eassumption). destruct (Nat.eqb j i); reflexivity.
  - destruct (Nat.eqb j i) eqn:E2; [|reflexivity]. apply Nat.eqb_eq in E2. subst. rewrite E. reflexivity.
Qed.
Lemma get_map {A B} (f : A -> B) i l : get (map (option_map f) l) i = option_map f (get l i).
Proof.
  unfold get. rewrite nth_error_map. destruct (nth_error l i) as [[|]|]; reflexivity.
Qed.

Lemma insert_spec {A} (x : A) l l' i : insert x l = (l', i) ->
  get l i = None /\ (forall j, get l' j = if Nat.eqb j i then Some x else get l j).
Proof.
  revert l' i. induction l as [|y l IH]; intros l' i H; cbn [insert] in H.
  - injection H as <- <-. split; [apply get_nil|]. intros [|j]; [reflexivity|]. rewrite get_S. cbn. rewrite !get_nil. reflexivity.
  - destruct y as [y|].
    + destruct (insert x l) as [r' k] eqn:E. injection H as <- <-. destruct (IH _ _ eq_refl) as [H1 H2]. split.
      * rewrite get_S. exact H1.
      * intros [|j]; [rewrite !get_O; reflexivity|]. rewrite !get_S. apply H2.
    + injection H as <- <-. split; [apply get_O|]. intros [|j]; [rewrite get_O; reflexivity|]. rewrite !get_S. reflexivity.
Qed.

Lemma position_some {A} (f : A -> bool) l i : position f l = Some i -> exists x, get l i = Some x /\ f x = true.
Proof.
  revert i. induction l as [|[y|] l IH]; intros i H; cbn [position] in H; [discriminate| |].
  - destruct (f y) eqn:E; [injection H as <-; exists y; rewrite get_O; auto|].
    destruct (position f l) as [k|] eqn:E2; [|discriminate]. injection H as <-. rewrite get_S. apply IH. reflexivity.
  - destruct (position f l) as [k|] eqn:E2; [|discriminate]. injection H as <-. rewrite get_S. apply IH. reflexivity.
Qed.
Lemma position_none {A} (f : A -> bool) l : position f l = None -> forall i x, get l i = Some x -> f x = false.
Proof.
  induction l as [|[y|] l IH]; intros H i x Hg; cbn [position] in H.
  - rewrite get_nil in Hg. discriminate.
  - destruct (f y) eqn:E; [discriminate|]. destruct (position f l) as [k|] eqn:E2; [discriminate|].
    destruct i as [|i]; [rewrite get_O in Hg; injection Hg as <-; exact E|]. rewrite get_S in Hg. eapply IH; [reflexivity|exact Hg].
  - destruct (position f l) as [k|] eqn:E2; [discriminate|].
    destruct i as [|i]; [rewrite get_O in Hg; discriminate|]. rewrite get_S in Hg. eapply IH; [reflexivity|exact Hg].
Qed.

Lemma in_indexes_from {A} n (l : list (option A)) i : In i (indexes_from n l) <-> (n <= i)%nat /\ get l (i - n) <> None.
Proof.
  revert n. induction l as [|[y|] l IH]; intros n; cbn [indexes_from].
  - split; [intros []|]. intros [_ H]. rewrite get_nil in H. congruence.
  - cbn [In]. rewrite IH. split.
    + intros [<- | [H1 H2]]; [rewrite Nat.sub_diag, get_O; split; [lia|congruence]|]. split; [lia|].
      replace (i - n)%nat with (S (i - S n)) by lia. exact H2.
    + intros [H1 H2]. destruct (Nat.eq_dec n i) as [->|Hne]; [left; reflexivity|]. right. split; [lia|].
      replace (i - n)%nat with (S (i - S n)) in H2 by lia. exact H2.
  - rewrite IH. split.
    + intros [H1 H2]. split; [lia|]. replace (i - n)%nat with (S (i - S n)) by lia. exact H2.
    + intros [H1 H2]. destruct (Nat.eq_dec n i) as [->|Hne].
      * rewrite Nat.sub_diag, get_O in H2. congruence.
      * split; [lia|]. replace (i - n)%nat with (S (i - S n)) in H2 by lia. exact H2.
Qed.
Lemma in_indexes {A} (l : list (option A)) i : In i (indexes l) <-> get l i <> None.
Proof. unfold indexes. rewrite in_indexes_from, Nat.sub_0_r. split; [tauto|]. intros H. split; [lia|exact H]. Qed.
Lemma in_having {A} (f : A -> bool) l i : In i (having f l) <-> exists x, get l i = Some x /\ f x = true.
Proof.
  unfold having. rewrite filter_In, in_indexes. destruct (get l i) as [x|]; split.
  - intros [_ H]. eauto.
  - intros (y & [= <-] & H). split; [congruence|exact H].
  - intros [H _]. congruence.
  - intros (y & H & _). discriminate.
Qed.
Lemma indexes_nodup_from {A} n (l : list (option A)) : NoDup (indexes_from n l).
Proof.
  revert n. induction l as [|[y|] l IH]; intros n; cbn [indexes_from]; [constructor| |apply IH].
  constructor; [|apply IH]. rewrite in_indexes_from. lia.
Qed.
Lemma indexes_nodup {A} (l : list (option A)) : NoDup (indexes l).
Proof. apply indexes_nodup_from. Qed.

Lemma mem_In x l : mem x l = true <-> In x l.
Proof.
  unfold mem. rewrite existsb_exists. split; [intros (y & H & E); apply Nat.eqb_eq in E; subst; exact H|].
  intros H. exists x. split; [exact H|apply Nat.eqb_refl].
Qed.
Lemma mem_false x l : mem x l = false <-> ~ In x l.
Proof. rewrite <- mem_In. destruct (mem x l); intuition congruence. Qed.
Lemma memz_In x l : memz x l = true <-> In x l.
Proof.
  unfold memz. rewrite existsb_exists. split; [intros (y & H & E); apply Z.eqb_eq in E; subst; exact H|].
  intros H. exists x. split; [exact H|apply Z.eqb_refl].
Qed.
Lemma memz_false x l : memz x l = false <-> ~ In x l.
Proof. rewrite <- memz_In. destruct (memz x l); intuition congruence. Qed.
Lemma erase_In x y l : In y (erase x l) <-> In y l /\ y <> x.
Proof.
  unfold erase. rewrite filter_In. destruct (Nat.eqb_spec x y) as [->|H]; cbn; intuition congruence.
Qed.

Lemma extract_first_some {A} (f : A -> bool) l x r : extract_first f l = Some (x, r) ->
  exists a b, l = a ++ x :: b /\ r = a ++ b /\ f x = true /\ (forall y, In y a -> f y = false).
Proof.
  revert x r. induction l as [|y l IH]; intros x r H; cbn [extract_first] in H; [discriminate|].
  destruct (f y) eqn:E.
  - injection H as <- <-. exists [], l. cbn. repeat split; auto. intros w [].
  - destruct (extract_first f l) as [[z r']|] eqn:E2; [|discriminate]. injection H as <- <-.
    destruct (IH _ _ eq_refl) as (a & b & -> & -> & Hf & Ha). exists (y :: a), b. cbn. repeat split; auto.
    intros w [<-|Hw]; auto.
Qed.
Lemma extract_first_none {A} (f : A -> bool) l : extract_first f l = None -> forall y, In y l -> f y = false.
Proof.
  induction l as [|y l IH]; intros H w Hw; cbn [extract_first] in H; [destruct Hw|].
  destruct (f y) eqn:E; [discriminate|]. destruct (extract_first f l) as [[z r']|] eqn:E2; [discriminate|].
  destruct Hw as [<-|Hw]; auto.
Qed.

Lemma then_eq s o f : then_ (s, o) f = (fst (f s), o ++ snd (f s)).
Proof. unfold then_. destruct (f s); reflexivity. Qed.
Lemma then_fst x f : fst (then_ x f) = fst (f (fst x)).
Proof. destruct x. rewrite then_eq. reflexivity. Qed.
Lemma then_snd x f : snd (then_ x f) = snd x ++ snd (f (fst x)).
Proof. destruct x. rewrite then_eq. reflexivity. Qed.

(* a relation between a state, effects and the state after them that holds for each element holds for all of them *)
Lemma each_inv {A} (P : state -> Prop) (Q : list out -> Prop) (f : A -> state -> state * list out) l :
  Q [] -> (forall a b, Q a -> Q b -> Q (a ++ b)) ->
  (forall x s, In x l -> P s -> P (fst (f x s)) /\ Q (snd (f x s))) ->
  forall s, P s -> P (fst (each f l s)) /\ Q (snd (each f l s)).
Proof.
  intros Q0 Qa. induction l as [|x l IH]; intros H s Hs; cbn [each]; [auto|].
  rewrite then_fst, then_snd. destruct (H x s (or_introl eq_refl) Hs) as [H1 H2].
  destruct (IH (fun y s' Hy => H y s' (or_intror Hy)) _ H1) as [H3 H4]. split; auto.
Qed.

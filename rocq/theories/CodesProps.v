(* C19: XA severity, C20: TX code composition. *)
From Coq Require Import ZArith List Bool Lia Permutation PeanoNat.
From Verif Require Import CodesModel.
Import ListNotations.
Local Open Scope Z_scope.

(* ---------------------------------------------------------------- C19 *)

Definition known (c : xa) : Prop := match c with xa_other _ => False | _ => True end.

(* how the XA specification classifies the codes, for those that the ranking is about *)
Inductive kind := Heuristic | Resource | Rolled_back | Success | Read_only.
Definition kind_of (c : xa) : option kind :=
  match c with
  | heuristic_hazard | heuristic_mix | heuristic_commit | heuristic_rollback => Some Heuristic
  | resource_fail | resource_error => Some Resource
  | rollback_integrity | rollback_communication | rollback_unspecified | rollback_other | rollback_deadlock
  | rollback_protocoll | rollback_timeout | rollback_transient => Some Rolled_back
  | xa_ok => Some Success
  | read_only => Some Read_only
  | _ => None
  end.
Definition rank (k : kind) : nat := match k with Heuristic => 0 | Resource => 1 | Rolled_back => 2 | Success => 3 | Read_only => 4 end.

Lemma of_severity_id a : known a -> of_severity (severity a) = a.
Proof. destruct a; simpl; tauto. Qed.

Lemma severity_of n : (n <= 23)%nat -> severity (of_severity n) = n.
Proof. intros H. do 24 (destruct n as [|n]; [reflexivity|]). lia. Qed.

Lemma severity_le a : (severity a <= 23)%nat.
Proof. destruct a; simpl; lia. Qed.

Lemma severity_severest a b : severity (severest a b) = Nat.min (severity a) (severity b).
Proof. unfold severest. apply severity_of. pose proof (severity_le a). lia. Qed.

Lemma known_of n : known (of_severity n).
Proof. do 24 (destruct n as [|n]; [exact I|]). exact I. Qed.

Lemma severity_inj a b : known a -> known b -> severity a = severity b -> a = b.
Proof. intros A B E. rewrite <- (of_severity_id a A), <- (of_severity_id b B), E. auto. Qed.

Theorem C19_commutative : forall a b, severest a b = severest b a.
Proof. intros. unfold severest. f_equal. apply Nat.min_comm. Qed.

Theorem C19_associative : forall a b c, severest a (severest b c) = severest (severest a b) c.
Proof. intros. unfold severest at 1 3. f_equal. rewrite !severity_severest. apply Nat.min_assoc. Qed.

(* the result is one of the two; a value that is no XA code counts as a resource error *)
Theorem C19_one_of_the_two : forall a b, known a -> known b -> severest a b = a \/ severest a b = b.
Proof.
  intros a b A B. unfold severest. destruct (Nat.min_spec (severity a) (severity b)) as [[_ ->]|[_ ->]]; rewrite of_severity_id; auto.
Qed.

Theorem C19_unknown_is_resource_error : forall v a, severest (xa_other v) a = severest resource_error a.
Proof. reflexivity. Qed.

(* a total order on the XA codes *)
Theorem C19_antisymmetric : forall a b, known a -> known b -> severest a b = a -> severest b a = b -> a = b.
Proof. intros a b A B H K. rewrite C19_commutative in K. congruence. Qed.

(* the kinds dominate each other as they should *)
Theorem C19_kinds : forall a b j k, kind_of a = Some j -> kind_of b = Some k -> (rank j < rank k)%nat ->
  severest a b = a /\ severest b a = a.
Proof.
  intros a b j k A B L. assert (S : (severity a < severity b)%nat).
  { destruct a; try discriminate A; injection A as <-; destruct b; try discriminate B; injection B as <-; simpl in *; lia. }
  rewrite (C19_commutative b a). split; unfold severest; rewrite Nat.min_l by lia; apply of_severity_id; destruct a; try discriminate A; exact I.
Qed.

(* the accumulated code of a set of answers does not depend on their order *)
Theorem C19_order_independent : forall l l' c, Permutation l l' -> fold_left severest l c = fold_left severest l' c.
Proof.
  intros l l' c P. revert c. induction P; intros c; simpl; auto.
  - rewrite <- !C19_associative, (C19_commutative y x). auto.
  - rewrite IHP1. auto.
Qed.

Lemma fold_severity l : forall c, severity (fold_left severest l c) = fold_left Nat.min (map severity l) (severity c).
Proof. induction l as [|a l IH]; intros c; simpl; auto. rewrite IH, severity_severest. auto. Qed.

Lemma fold_min_le l : forall n, (fold_left Nat.min l n <= n)%nat /\ forall x, In x l -> (fold_left Nat.min l n <= x)%nat.
Proof.
  induction l as [|y l IH]; intros n; simpl; [split; [lia|tauto]|]. destruct (IH (Nat.min n y)) as [A B].
  split; [lia|]. intros x [->|H]; [lia|auto].
Qed.

Lemma fold_one l : forall c, known c -> Forall known l -> fold_left severest l c = c \/ In (fold_left severest l c) l.
Proof.
  induction l as [|a l IH]; intros c K F; simpl; auto. inversion F; subst.
  assert (KS : known (severest c a)) by apply known_of.
  destruct (IH (severest c a) KS H2) as [E|E]; [|auto]. rewrite E.
  destruct (C19_one_of_the_two c a K H1) as [X|X]; rewrite X; auto.
Qed.

(* and is the worst among them *)
Theorem C19_worst : forall l c, known c -> Forall known l ->
  let r := fold_left severest l c in
  (r = c \/ In r l) /\ severest r c = r /\ forall x, In x l -> severest r x = r.
Proof.
  intros l c K F r. assert (KR : known r).
  { destruct (fold_one l c K F) as [E|E]; unfold r; [rewrite E; auto|]. rewrite Forall_forall in F. auto. }
  assert (LE : forall x, (severity r <= severity x)%nat -> severest r x = r).
  { intros x H. unfold severest. rewrite Nat.min_l by auto. apply of_severity_id; auto. }
  split; [apply fold_one; auto|]. unfold r at 1 3 in LE.
  assert (FM := fold_min_le (map severity l) (severity c)). rewrite <- fold_severity in FM. destruct FM as [A B].
  split; [apply LE; auto|]. intros x X. apply LE. apply B. apply in_map; auto.
Qed.

Example ex_C19 : fold_left severest [xa_ok; rollback_timeout; read_only; resource_fail; xa_other 77] read_only = resource_fail.
Proof. reflexivity. Qed.

(* ---------------------------------------------------------------- C20 *)

(* the accumulated result of several operations *)
Definition tx_sum (l : list tx) (c : tx) : tx := fold_left tx_add l c.

Lemma add_ok a b : tx_add a b = tx_ok -> a = tx_ok /\ b = tx_ok.
Proof. destruct a, b; simpl; intros H; try discriminate H; auto. Qed.

(* a sum is ok only if everything was *)
Theorem C20_ok_only_if_all_ok : forall l c, tx_sum l c = tx_ok -> c = tx_ok /\ forall x, In x l -> x = tx_ok.
Proof.
  unfold tx_sum. induction l as [|a l IH]; simpl; intros c H; [split; [auto|tauto]|].
  destruct (IH _ H) as [E F]. apply add_ok in E as [-> ->]. split; auto. intros x [<-|X]; auto.
Qed.

Theorem C20_ok_is_neutral : forall a, tx_add a tx_ok = a /\ tx_add tx_ok a = a.
Proof. intros a. destruct a; auto. Qed.

(* without the NO_BEGIN codes, addition is commutative and associative, so the sum is independent of order and grouping *)
Definition plain (c : tx) : Prop := tx_value no_begin < tx_value c.

Lemma plain_add a b : plain a -> plain b -> plain (tx_add a b).
Proof. unfold plain. destruct a, b; simpl; lia. Qed.

Theorem C20_commutative : forall a b, plain a -> plain b -> tx_add a b = tx_add b a.
Proof. unfold plain. intros a b A B. destruct a, b; try reflexivity; simpl in *; lia. Qed.

Theorem C20_associative : forall a b c, plain a -> plain b -> plain c -> tx_add a (tx_add b c) = tx_add (tx_add a b) c.
Proof.
  unfold plain. intros a b c A B C.
  destruct a; (try (simpl in A; lia)); destruct b; (try (simpl in B; lia)); destruct c; (try (simpl in C; lia)); reflexivity.
Qed.

Theorem C20_order_independent : forall l l' c, Permutation l l' -> plain c -> Forall plain l -> tx_sum l c = tx_sum l' c.
Proof.
  intros l l' c P. revert c. unfold tx_sum. induction P; intros c K F; simpl; auto.
  - inversion F; subst. apply IHP; auto. apply plain_add; auto.
  - inversion F as [|? ? F1 F2]; subst. inversion F2; subst.
    rewrite <- !C20_associative, (C20_commutative y x); auto.
  - rewrite IHP1; auto. apply IHP2; auto. eapply Permutation_Forall; eauto.
Qed.

(* what resources answer, except XAER_NOTA, converts to plain codes *)
Theorem C20_resource_codes_are_plain : forall c, c <> invalid_xid -> plain (to_tx c).
Proof. unfold plain. intros c H. destruct c; try (simpl; lia). congruence. Qed.

(* success is reported only for success *)
Theorem C20_conversion_is_truthful : forall c, to_tx c = tx_ok <-> c = xa_ok \/ c = read_only.
Proof. intros c. destruct c; simpl; split; intros H; try discriminate H; auto; destruct H; discriminate. Qed.

(* with XAER_NOTA among the answers the sum depends on the order: it converts to TX_NO_BEGIN, which meets only the code that
   comes next *)
Theorem C20_order_independent_refuted :
  exists l l' c, Permutation l l' /\ tx_sum (map to_tx l) c <> tx_sum (map to_tx l') c.
Proof.
  exists [invalid_xid; heuristic_mix; heuristic_hazard], [invalid_xid; heuristic_hazard; heuristic_mix], tx_ok.
  split; [constructor; constructor|]. discriminate.
Qed.

(* and TX_NO_BEGIN hides a failure *)
Theorem C20_fatal_error_hidden_refuted : exists l, In resource_fail l /\ tx_sum (map to_tx l) tx_ok = no_begin.
Proof. exists [resource_fail; invalid_xid]. simpl. auto. Qed.

(* adding "could not begin" to the result of a completion gives its NO_BEGIN variant *)
Theorem C20_no_begin_variant : forall c, plain c ->
  tx_add c no_begin = no_begin_combination c /\ tx_add no_begin c = no_begin_combination c.
Proof. unfold plain. intros c H. destruct c; try (simpl in H; lia); auto. Qed.

Example ex_C20 : tx_sum (map to_tx [xa_ok; heuristic_mix; read_only; resource_error]) tx_ok = mixed.
Proof. reflexivity. Qed.

Print Assumptions C19_commutative.
Print Assumptions C19_associative.
Print Assumptions C19_one_of_the_two.
Print Assumptions C19_unknown_is_resource_error.
Print Assumptions C19_antisymmetric.
Print Assumptions C19_kinds.
Print Assumptions C19_order_independent.
Print Assumptions C19_worst.
Print Assumptions C20_ok_only_if_all_ok.
Print Assumptions C20_ok_is_neutral.
Print Assumptions C20_commutative.
Print Assumptions C20_associative.
Print Assumptions C20_order_independent.
Print Assumptions C20_resource_codes_are_plain.
Print Assumptions C20_conversion_is_truthful.
Print Assumptions C20_order_independent_refuted.
Print Assumptions C20_fatal_error_hidden_refuted.
Print Assumptions C20_no_begin_variant.

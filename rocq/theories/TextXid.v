From Coq Require Import ZArith List Bool Lia.
From Verif Require Import Bytes BoModel BoSpec BoProofs TextModel TextSpec TextProofs.
Import ListNotations.
Local Open Scope Z_scope.

Definition head (h : host) (x : xid) : list Z := memory h 8 (to_word 8 (x_format x)) ++ memory h 8 (to_word 8 (x_gtrid x)) ++ memory h 8 (to_word 8 (x_bqual x)).
Definition cmp (h : host) (a b : xid) : comparison := memcmp (xid_size a) (xid_memory h a) (xid_memory h b).
Lemma head_length h x : length (head h x) = 24%nat.
Proof. unfold head. rewrite !app_length, !memory_length. reflexivity. Qed.
Lemma xid_memory_head h x : xid_memory h x = head h x ++ x_data x.
Proof. unfold xid_memory, head. rewrite <- !app_assoc. reflexivity. Qed.
Definition tail_size (x : xid) : nat := (Z.to_nat (x_gtrid x) + Z.to_nat (x_bqual x))%nat.
Lemma xid_size_tail x : valid_xid x -> xid_size x = (24 + tail_size x)%nat.
Proof. intros (_ & G & B & _). unfold xid_size, tail_size. lia. Qed.
Lemma cmp_split h a b : valid_xid a -> cmp h a b = match memcmp 24 (head h a) (head h b) with Eq => memcmp (tail_size a) (x_data a) (x_data b) | o => o end.
Proof. intros V. unfold cmp. rewrite !xid_memory_head, (xid_size_tail a V). apply memcmp_app; apply head_length. Qed.
Lemma field_inj h v w : - 2 ^ 63 <= v < 2 ^ 63 -> - 2 ^ 63 <= w < 2 ^ 63 -> memory h 8 (to_word 8 v) = memory h 8 (to_word 8 w) -> v = w.
Proof.
  intros Hv Hw E. apply (f_equal (word h)) in E. rewrite !word_memory in E by apply to_word_range. apply (f_equal (to_signed 8)) in E. rewrite !to_signed_word in E by (try lia; exact Hv || exact Hw). exact E.
Qed.
Lemma head_eq h a b : valid_xid a -> valid_xid b -> memcmp 24 (head h a) (head h b) = Eq -> x_format a = x_format b /\ x_gtrid a = x_gtrid b /\ x_bqual a = x_bqual b.
Proof.
  intros (F1 & G1 & B1 & _) (F2 & G2 & B2 & _) H. apply memcmp_eq in H; [|rewrite head_length; lia..]. pose proof (head_length h a) as L1. pose proof (head_length h b) as L2.
  rewrite <- L1 in H at 1. rewrite firstn_all in H. rewrite <- L2, firstn_all in H. clear L1 L2. unfold head in H.
  assert (L : forall v, length (memory h 8 (to_word 8 v)) = 8%nat) by (intros; apply memory_length).
  assert (S : forall (p q a b : list Z), length p = length q -> p ++ a = q ++ b -> p = q /\ a = b). { intros p. induction p as [|x p IH]; intros [|y q] c d E E2; try discriminate; [auto|]. cbn in E, E2. injection E2 as -> E2. destruct (IH q c d) as [-> ->]; [lia|exact E2|auto]. }
  apply S in H; [|rewrite !L; reflexivity]. destruct H as [H1 H]. apply S in H; [|rewrite !L; reflexivity]. destruct H as [H2 H3].
  split; [apply (field_inj h); [lia|lia|exact H1]|]. split; apply (field_inj h); auto; lia.
Qed.
Lemma head_same h a b : x_format a = x_format b -> x_gtrid a = x_gtrid b -> x_bqual a = x_bqual b -> head h a = head h b.
Proof. intros E1 E2 E3. unfold head. rewrite E1, E2, E3. reflexivity. Qed.
Lemma cmp_eq h a b : valid_xid a -> valid_xid b -> (cmp h a b = Eq <-> x_format a = x_format b /\ gtrid a = gtrid b /\ bqual a = bqual b).
Proof.
  intros Va Vb. rewrite cmp_split by exact Va. pose proof Va as (_ & G1 & B1 & L1 & _). pose proof Vb as (_ & G2 & B2 & L2 & _).
  assert (Lg : forall x, valid_xid x -> length (gtrid x) = Z.to_nat (x_gtrid x) /\ length (bqual x) = Z.to_nat (x_bqual x)).
  { intros x (_ & G & B & L & _). unfold gtrid, bqual. rewrite !firstn_length, skipn_length. lia. }
  assert (T : forall x, valid_xid x -> firstn (tail_size x) (x_data x) = gtrid x ++ bqual x).
  { intros x (_ & G & B & L & _). unfold tail_size, gtrid, bqual. rewrite <- (firstn_skipn (Z.to_nat (x_gtrid x)) (x_data x)) at 1. rewrite firstn_app, firstn_firstn. rewrite firstn_length.
    replace (Nat.min (Z.to_nat (x_gtrid x) + Z.to_nat (x_bqual x)) (Z.to_nat (x_gtrid x))) with (Z.to_nat (x_gtrid x)) by lia. do 2 f_equal. lia. }
  split.
  - destruct (memcmp 24 _ _) eqn:H; try discriminate. destruct (head_eq h a b Va Vb H) as (E1 & E2 & E3). intros E.
    assert (Et : tail_size a = tail_size b) by (unfold tail_size; rewrite E2, E3; reflexivity). apply memcmp_eq in E; [|rewrite ?L1, ?L2; unfold tail_size; lia..]. rewrite (T a Va) in E. rewrite Et, (T b Vb) in E.
    split; [exact E1|]. destruct (Lg a Va) as [La _]. destruct (Lg b Vb) as [Lb _]. assert (S : forall (p q c d : list Z), length p = length q -> p ++ c = q ++ d -> p = q /\ c = d).
    { intros p. induction p as [|x p IH]; intros [|y q] c d Q1 Q2; try discriminate; [auto|]. cbn in Q1, Q2. injection Q2 as -> Q2. destruct (IH q c d) as [-> ->]; [lia|exact Q2|auto]. }
    apply S; [congruence|exact E].
  - intros (E1 & Eg & Eb). destruct (Lg a Va) as [La La']. destruct (Lg b Vb) as [Lb Lb']. assert (E2 : x_gtrid a = x_gtrid b) by (rewrite Eg in La; lia). assert (E3 : x_bqual a = x_bqual b) by (rewrite Eb in La'; lia).
    rewrite (head_same h a b E1 E2 E3), memcmp_refl. apply memcmp_eq; [rewrite ?L1, ?L2; unfold tail_size; lia..|]. rewrite (T a Va). assert (Et : tail_size a = tail_size b) by (unfold tail_size; rewrite E2, E3; reflexivity). rewrite Et, (T b Vb), Eg, Eb. reflexivity.
Qed.
Lemma cmp_flip h a b : valid_xid a -> valid_xid b -> cmp h b a = CompOpp (cmp h a b).
Proof.
  intros Va Vb. rewrite !cmp_split by assumption. rewrite (memcmp_flip 24 (head h a) (head h b)). destruct (memcmp 24 (head h a) (head h b)) eqn:E; cbn [CompOpp]; try reflexivity.
  destruct (head_eq h a b Va Vb E) as (_ & E2 & E3). replace (tail_size b) with (tail_size a) by (unfold tail_size; rewrite E2, E3; reflexivity). apply memcmp_flip.
Qed.
Lemma cmp_trans h a b c : valid_xid a -> valid_xid b -> valid_xid c -> cmp h a b = Lt -> cmp h b c = Lt -> cmp h a c = Lt.
Proof.
  intros Va Vb Vc. rewrite !cmp_split by assumption. destruct (memcmp 24 (head h a) (head h b)) eqn:E1; try discriminate; destruct (memcmp 24 (head h b) (head h c)) eqn:E2; try discriminate; intros H1 H2.
  - destruct (head_eq h a b Va Vb E1) as (X1 & X2 & X3). rewrite (head_same h a b X1 X2 X3), E2. replace (tail_size b) with (tail_size a) in H2 by (unfold tail_size; rewrite X2, X3; reflexivity). eapply memcmp_trans; eassumption.
  - destruct (head_eq h a b Va Vb E1) as (X1 & X2 & X3). rewrite (head_same h a b X1 X2 X3), E2. reflexivity.
  - destruct (head_eq h b c Vb Vc E2) as (X1 & X2 & X3). rewrite <- (head_same h b c X1 X2 X3), E1. reflexivity.
  - rewrite (memcmp_trans _ _ _ _ E1 E2). reflexivity.
Qed.
Lemma eq_same h a b : valid_xid a -> valid_xid b -> (xid_eq h a b = true <-> same_branch a b).
Proof.
  intros Va Vb. unfold xid_eq, same_branch. destruct (Z.eqb_spec (x_format a) (x_format b)) as [E|E]; cbn [negb]; [|split; [discriminate|intros [? _]; contradiction]].
  destruct (Z.eqb_spec (x_format a) (-1)) as [N|N]; [split; auto|]. fold (cmp h a b). pose proof (cmp_eq h a b Va Vb) as C. destruct (cmp h a b); (split; [intros H|intros [_ [H|[H1 H2]]]]); try discriminate; try reflexivity; try contradiction.
  - split; [exact E|]. right. apply C. reflexivity.
  - assert (X : Lt = Eq) by (apply C; auto). discriminate.
  - assert (X : Gt = Eq) by (apply C; auto). discriminate.
Qed.
Lemma lt_irrefl h a : xid_lt h a a = false.
Proof. unfold xid_lt. rewrite Z.eqb_refl. cbn [negb]. destruct (_ =? -1); [reflexivity|]. rewrite memcmp_refl. reflexivity. Qed.
Lemma lt_trans h a b c : valid_xid a -> valid_xid b -> valid_xid c -> xid_lt h a b = true -> xid_lt h b c = true -> xid_lt h a c = true.
Proof.
  intros Va Vb Vc. unfold xid_lt. destruct (Z.eqb_spec (x_format a) (x_format b)) as [E1|E1], (Z.eqb_spec (x_format b) (x_format c)) as [E2|E2]; cbn [negb].
  - rewrite E1, E2, Z.eqb_refl. cbn [negb]. destruct (_ =? -1); [discriminate|]. fold (cmp h a b). fold (cmp h b c). fold (cmp h a c).
    destruct (cmp h a b) eqn:C1; try discriminate. destruct (cmp h b c) eqn:C2; try discriminate. rewrite (cmp_trans h a b c) by assumption. reflexivity.
  - rewrite E1. intros _. destruct (Z.eqb_spec (x_format b) (x_format c)); [contradiction|auto].
  - rewrite <- E2. destruct (Z.eqb_spec (x_format a) (x_format b)); [contradiction|auto].
  - rewrite !Z.ltb_lt. intros H1 H2. destruct (Z.eqb_spec (x_format a) (x_format c)); [lia|]. cbn [negb]. apply Z.ltb_lt. lia.
Qed.
Lemma lt_total h a b : valid_xid a -> valid_xid b -> same_branch a b /\ xid_lt h a b = false /\ xid_lt h b a = false \/ ~ same_branch a b /\ xid_lt h a b = negb (xid_lt h b a).
Proof.
  intros Va Vb. pose proof (eq_same h a b Va Vb) as S. unfold xid_eq in S. unfold xid_lt. rewrite (Z.eqb_sym (x_format b) (x_format a)). destruct (Z.eqb_spec (x_format a) (x_format b)) as [E|E]; cbn [negb] in *.
  - rewrite <- E. destruct (x_format a =? -1) eqn:N; [left; split; [apply S; reflexivity|auto]|]. fold (cmp h a b) in *. fold (cmp h b a). rewrite (cmp_flip h a b Va Vb).
    destruct (cmp h a b); cbn [CompOpp negb]; [left; split; [apply S; reflexivity|auto]|right|right]; (split; [|reflexivity]); intros X; apply S in X; discriminate.
  - right. split; [intros X; apply S in X; discriminate|]. destruct (Z.ltb_spec (x_format a) (x_format b)), (Z.ltb_spec (x_format b) (x_format a)); cbn; try reflexivity; lia.
Qed.

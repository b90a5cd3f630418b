(* Words as sequences of bytes: arithmetic that the models of the codecs share. A byte is a number in 0..255. *)
From Coq Require Import ZArith List Bool Lia.
Import ListNotations.
Local Open Scope Z_scope.

Definition is_byte (b : Z) : Prop := 0 <= b < 256.
(* 2^(8n) *)
Definition radix (n : nat) : Z := 256 ^ Z.of_nat n.
(* the n lowest bytes of a word, the lowest first *)
Fixpoint le (n : nat) (z : Z) : list Z :=
  match n with O => [] | S k => z mod 256 :: le k (z / 256) end.
Fixpoint un_le (l : list Z) : Z :=
  match l with [] => 0 | b :: r => b + 256 * un_le r end.
(* the highest first *)
Definition be (n : nat) (z : Z) : list Z := rev (le n z).
Definition un_be (l : list Z) : Z := un_le (rev l).

Lemma radix_pos n : 0 < radix n. Proof. unfold radix. apply Z.pow_pos_nonneg; lia. Qed.
Lemma radix_S n : radix (S n) = 256 * radix n.
Proof. unfold radix. rewrite Nat2Z.inj_succ, Z.pow_succ_r by lia. reflexivity. Qed.
Lemma radix_0 : radix 0 = 1. Proof. reflexivity. Qed.
Lemma le_length n : forall z, length (le n z) = n.
Proof. induction n as [|n IH]; intros z; cbn [le length]; [reflexivity|]. rewrite IH. reflexivity. Qed.
Lemma be_length n z : length (be n z) = n. Proof. unfold be. rewrite rev_length. apply le_length. Qed.
Lemma le_bytes n : forall z, Forall is_byte (le n z).
Proof. induction n as [|n IH]; intros z; cbn [le]; constructor; [|apply IH]. unfold is_byte. apply Z.mod_pos_bound. lia. Qed.
Lemma be_bytes n z : Forall is_byte (be n z). Proof. unfold be. apply Forall_rev, le_bytes. Qed.
Lemma un_le_le n : forall z, un_le (le n z) = z mod radix n.
Proof.
  induction n as [|n IH]; intros z; cbn [le un_le].
  - rewrite radix_0, Z.mod_1_r. reflexivity.
  - rewrite IH, radix_S. rewrite Z.rem_mul_r by (pose proof (radix_pos n); lia). reflexivity.
Qed.
Lemma un_be_be n z : un_be (be n z) = z mod radix n.
Proof. unfold un_be, be. rewrite rev_involutive. apply un_le_le. Qed.
Lemma le_un_le l : Forall is_byte l -> le (length l) (un_le l) = l.
Proof.
  induction 1 as [|b r Hb Hr IH]; cbn [length le un_le]; [reflexivity|]. unfold is_byte in Hb.
  rewrite (Z.mul_comm 256), Z.mod_add, Z.div_add by lia. rewrite Z.mod_small, Z.div_small by lia. rewrite Z.add_0_l, IH. reflexivity.
Qed.
Lemma un_le_range l : Forall is_byte l -> 0 <= un_le l < radix (length l).
Proof.
  induction 1 as [|b r Hb Hr IH]; cbn [length un_le]; [rewrite radix_0; lia|]. rewrite radix_S. unfold is_byte in Hb. lia.
Qed.
Lemma be_un_be l : Forall is_byte l -> be (length l) (un_be l) = l.
Proof.
  intros H. unfold be, un_be. rewrite <- (rev_length l). rewrite le_un_le by (apply Forall_rev, H). apply rev_involutive.
Qed.
Lemma un_be_range l : Forall is_byte l -> 0 <= un_be l < radix (length l).
Proof. intros H. unfold un_be. rewrite <- (rev_length l). apply un_le_range, Forall_rev, H. Qed.
Lemma le_mod n : forall z, le n (z mod radix n) = le n z.
Proof.
  induction n as [|n IH]; intros z; cbn [le]; [reflexivity|]. rewrite radix_S. pose proof (radix_pos n).
  assert (E : z mod (256 * radix n) = z mod 256 + 256 * ((z / 256) mod radix n)) by (apply Z.rem_mul_r; lia).
  rewrite E. rewrite (Z.mul_comm 256 ((z / 256) mod radix n)), Z.mod_add, Z.div_add by lia.
  rewrite Z.mod_mod by lia. rewrite (Z.div_small (z mod 256)) by (apply Z.mod_pos_bound; lia). rewrite Z.add_0_l, IH. reflexivity.
Qed.
Lemma be_mod n z : be n (z mod radix n) = be n z. Proof. unfold be. rewrite le_mod. reflexivity. Qed.
Lemma le_nth n : forall z i, (i < n)%nat -> nth i (le n z) 0 = z / radix i mod 256.
Proof.
  induction n as [|n IH]; intros z i Hi; [lia|]. destruct i as [|i]; cbn [le nth].
  - rewrite radix_0, Z.div_1_r. reflexivity.
  - rewrite IH by lia. rewrite radix_S. pose proof (radix_pos i). rewrite Z.div_div by lia. reflexivity.
Qed.
Lemma be_nth n z i : (i < n)%nat -> nth i (be n z) 0 = z / radix (n - 1 - i) mod 256.
Proof.
  intros H. unfold be. rewrite rev_nth by (rewrite le_length; exact H). rewrite le_length. rewrite le_nth by lia. do 3 f_equal. lia.
Qed.

From Coq Require Import ZArith List Bool Lia.
From Verif Require Import Bytes BoModel BoSpec.
Import ListNotations.
Local Open Scope Z_scope.

Lemma radix_pow n : radix n = 2 ^ (8 * Z.of_nat n).
Proof. unfold radix. rewrite Z.pow_mul_r by lia. reflexivity. Qed.
Lemma to_word_range n v : 0 <= to_word n v < radix n.
Proof. apply Z.mod_pos_bound, radix_pos. Qed.
Lemma memory_length h n w : length (memory h n w) = n.
Proof. destruct h; [apply le_length|apply be_length]. Qed.
Lemma memory_bytes h n w : Forall is_byte (memory h n w).
Proof. destruct h; [apply le_bytes|apply be_bytes]. Qed.
Lemma word_memory h n w : 0 <= w < radix n -> word h (memory h n w) = w.
Proof. intros H. destruct h; cbn [memory word]; [rewrite un_le_le|rewrite un_be_be]; apply Z.mod_small; exact H. Qed.
Lemma memory_word h l : Forall is_byte l -> memory h (length l) (word h l) = l.
Proof. intros H. destruct h; cbn [memory word]; [apply le_un_le|apply be_un_be]; exact H. Qed.
Lemma word_range h l : Forall is_byte l -> 0 <= word h l < radix (length l).
Proof. intros H. destruct h; [apply un_le_range|apply un_be_range]; exact H. Qed.

Lemma bswap_range n w : 0 <= bswap n w < radix n.
Proof.
  unfold bswap. pose proof (un_le_range (rev (le n w))) as H. rewrite rev_length, le_length in H. apply H, Forall_rev, le_bytes.
Qed.
Lemma le_bswap n w : le n (bswap n w) = rev (le n w).
Proof.
  unfold bswap. pose proof (le_un_le (rev (le n w))) as H. rewrite rev_length, le_length in H. apply H, Forall_rev, le_bytes.
Qed.
Lemma bswap_bswap n w : 0 <= w < radix n -> bswap n (bswap n w) = w.
Proof. intros H. unfold bswap at 1. rewrite le_bswap, rev_involutive, un_le_le. apply Z.mod_small, H. Qed.
Lemma htobe_range h n w : 0 <= w < radix n -> 0 <= htobe h n w < radix n.
Proof. intros H. destruct h; cbn [htobe]; [apply bswap_range|exact H]. Qed.
(* whatever the host, the memory of the encoded word is big endian *)
Lemma memory_htobe h n w : memory h n (htobe h n w) = be n w.
Proof. destruct h; cbn [memory htobe]; [apply le_bswap|reflexivity]. Qed.
Lemma betoh_word h l : Forall is_byte l -> betoh h (length l) (word h l) = un_be l.
Proof.
  intros H. destruct h; cbn [betoh word]; [|reflexivity]. unfold bswap. rewrite le_un_le by exact H. reflexivity.
Qed.
Lemma betoh_htobe h n w : 0 <= w < radix n -> betoh h n (htobe h n w) = w.
Proof. intros H. destruct h; cbn [betoh htobe]; [apply bswap_bswap, H|reflexivity]. Qed.
Lemma to_signed_word n v : (0 < n)%nat -> - (radix n / 2) <= v < radix n / 2 -> to_signed n (to_word n v) = v.
Proof.
  intros Hn H. unfold to_signed, to_word. destruct n as [|k]; [lia|]. assert (E : radix (S k) = 2 * (radix (S k) / 2)).
  { rewrite radix_S. replace (256 * radix k) with (2 * (128 * radix k)) by lia. rewrite (Z.mul_comm 2), Z.div_mul by lia. lia. }
  set (R := radix (S k) / 2) in *. pose proof (radix_pos (S k)). destruct (Z.ltb_spec v 0) as [Hv|Hv].
  - assert (Em : v mod radix (S k) = v + radix (S k)). { symmetry. apply Z.mod_unique with (q := -1); lia. } rewrite Em. destruct (Z.ltb_spec (v + radix (S k)) R); lia.
  - rewrite Z.mod_small by lia. destruct (Z.ltb_spec v R); lia.
Qed.

Definition plain (t : scalar) : bool := match t with T_bool | T_char | T_uchar => true | _ => false end.
(* the word that is encoded *)
Lemma encode_be h t v : value_of t v -> memory h (width t) (encode h t v) = be (width t) v /\ 0 <= encode h t v < radix (width t).
Proof.
  intros H.
  assert (G : forall n w, memory h n (htobe h n (to_word n w)) = be n w /\ 0 <= htobe h n (to_word n w) < radix n).
  { intros n w. split; [rewrite memory_htobe; unfold to_word; apply be_mod|]. apply htobe_range, to_word_range. }
  assert (P : memory h 1 (to_word 1 v) = be 1 v /\ 0 <= to_word 1 v < radix 1).
  { split; [|apply to_word_range]. unfold to_word. destruct h; cbn [memory]; [rewrite le_mod; reflexivity|apply be_mod]. }
  destruct t; cbn [encode width]; try exact P; try apply G.
  destruct (G 8%nat (to_signed 8 (to_word 8 v))) as [G1 G2]. split; [|exact G2]. rewrite G1. rewrite <- (be_mod 8 (to_signed _ _)), <- (be_mod 8 v). f_equal.
  unfold to_signed, to_word. destruct (Z.ltb_spec (v mod radix 8) (radix 8 / 2)); [apply Z.mod_mod; pose proof (radix_pos 8); lia|].
  rewrite Zminus_mod, Z.mod_mod by (pose proof (radix_pos 8); lia). rewrite Z.mod_same by (pose proof (radix_pos 8); lia). rewrite Z.sub_0_r.
  apply Z.mod_mod. pose proof (radix_pos 8); lia.
Qed.
Lemma decode_be h t l : Forall is_byte l -> length l = width t ->
  decode h t (word h l) = match t with
    | T_bool => if un_be l =? 0 then 0 else 1
    | T_uchar | T_float | T_double => un_be l
    | T_usize => to_word 8 (to_signed 8 (un_be l))
    | _ => to_signed (width t) (un_be l)
    end.
Proof.
  intros Hb Hl.
  assert (P : length l = 1%nat -> word h l = un_be l). { destruct l as [|b [|? ?]]; intros E; try discriminate E. destruct h; reflexivity. }
  pose proof (betoh_word h l Hb) as B. rewrite Hl in B.
  destruct t; cbn [decode width] in *; try (rewrite P by exact Hl; reflexivity); rewrite B; reflexivity.
Qed.
Lemma decode_of_be h t v : value_of t v -> decode h t (word h (be (width t) v)) = v.
Proof.
  intros H. rewrite decode_be by (auto using be_bytes, be_length). rewrite un_be_be.
  change (v mod radix (width t)) with (to_word (width t) v).
  assert (S : - (radix (width t) / 2) <= v < radix (width t) / 2 -> to_signed (width t) (to_word (width t) v) = v).
  { apply to_signed_word. destruct t; cbn; lia. }
  assert (U : 0 <= v < radix (width t) -> to_word (width t) v = v) by (apply Z.mod_small).
  destruct t; cbn [value_of width] in *; try (apply S; exact H); try (apply U; exact H).
  - rewrite U by (change (radix 1) with 256; lia). destruct H as [-> | ->]; reflexivity.
  - rewrite U by exact H. unfold to_signed, to_word. destruct (Z.ltb_spec v (radix 8 / 2)); [apply Z.mod_small; exact H|].
    symmetry. apply Z.mod_unique with (q := -1); [|lia]. change (radix 8) with (2 ^ 64). lia.
Qed.

Lemma big_endian_be n v : big_endian n v (be n v).
Proof.
  split; [apply be_length|]. intros i Hi. rewrite <- be_mod. rewrite be_nth by exact Hi. rewrite !radix_pow. reflexivity.
Qed.
Lemma big_endian_unique n v l : big_endian n v l -> l = be n v.
Proof.
  intros [H1 H2]. apply nth_ext with (d := 0) (d' := 0); [rewrite be_length; exact H1|]. intros i Hi. rewrite H1 in Hi. rewrite H2 by exact Hi.
  symmetry. apply (proj2 (big_endian_be n v)). exact Hi.
Qed.
Lemma encode_big_endian h t v : value_of t v -> big_endian (width t) v (memory h (width t) (encode h t v)).
Proof. intros H. rewrite (proj1 (encode_be h t v H)). apply big_endian_be. Qed.
Lemma round_trip h t v : value_of t v -> decode h t (encode h t v) = v.
Proof.
  intros H. destruct (encode_be h t v H) as [E R]. rewrite <- (word_memory h (width t) (encode h t v)) at 1 by exact R. rewrite E.
  apply decode_of_be, H.
Qed.
Lemma across_hosts h h' t v : value_of t v -> decode h' t (word h' (memory h (width t) (encode h t v))) = v.
Proof. intros H. rewrite (proj1 (encode_be h t v H)). apply decode_of_be, H. Qed.

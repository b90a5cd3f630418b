From Coq Require Import ZArith List Bool Arith Lia Sorted.
From Verif Require Import Bytes BoModel BoSpec BoProofs ArcModel ArcSpec.
Import ListNotations.
Local Open Scope Z_scope.

Lemma write_num_length p s x : length (write_num p s x) = width s.
Proof. destruct p; apply memory_length. Qed.
Lemma of_word_word s x : value_of s x -> of_word s (to_word (width s) x) = x.
Proof.
  intros V. change (2 ^ 63) with 9223372036854775808 in *.
  destruct s; cbn [of_word width value_of] in *.
  - destruct V; subst; reflexivity.
  - apply to_signed_word; [lia|]. change (radix 1 / 2) with 128. lia.
  - apply Z.mod_small. change (radix 1) with 256. lia.
  - apply to_signed_word; [lia|]. change (radix 2 / 2) with (2 ^ 15). lia.
  - apply to_signed_word; [lia|]. change (radix 4 / 2) with (2 ^ 31). lia.
  - apply to_signed_word; [lia|]. change (radix 8 / 2) with (2 ^ 63). lia.
  - apply to_signed_word; [lia|]. change (radix 8 / 2) with (2 ^ 63). lia.
  - apply Z.mod_small. change (radix 4) with (2 ^ 32). lia.
  - apply Z.mod_small. change (radix 8) with (2 ^ 64). lia.
  - apply to_signed_word; [lia|]. change (radix 8 / 2) with (2 ^ 63). lia.
  - apply Z.mod_small. change (radix 8) with (2 ^ 64). lia.
Qed.
Lemma read_write_num p p' s x rest : compatible p p' -> value_of s x -> read_num p' s (write_num p s x ++ rest) = Read x rest.
Proof.
  intros C V. unfold read_num. rewrite app_length, write_num_length. destruct (Nat.ltb_spec (width s + length rest) (width s)); [lia|].
  pose proof (write_num_length p s x) as L. rewrite firstn_app, skipn_app, L, Nat.sub_diag, <- L, firstn_all, skipn_all. cbn [firstn skipn]. rewrite app_nil_r. cbn [app].
  f_equal. destruct p as [h|h], p' as [h'|h']; cbn [compatible] in C; try contradiction.
  - subst h'. cbn [write_num]. rewrite word_memory by apply to_word_range. apply of_word_word. exact V.
  - cbn [write_num]. apply across_hosts. exact V.
Qed.
Lemma read_write_size p p' n rest : compatible p p' -> - 2 ^ 63 <= n < 2 ^ 63 -> read_size p' (write_size p n ++ rest) = Read n rest.
Proof. intros C H. apply read_write_num; auto. Qed.
Lemma consume_app l rest : consume (Z.of_nat (length l)) (l ++ rest) = Read l rest.
Proof.
  unfold consume. rewrite app_length. destruct (Z.ltb_spec (Z.of_nat (length l + length rest)) (Z.of_nat (length l))); [lia|].
  rewrite Nat2Z.id, firstn_app, skipn_app, Nat.sub_diag, firstn_all, skipn_all. cbn [firstn skipn app]. rewrite app_nil_r. reflexivity.
Qed.
Lemma insert_at_end f x l : Forall (fun y => f y = false) l -> insert_at f x l = l ++ [x].
Proof. induction 1 as [|y l H _ IH]; [reflexivity|]. cbn [insert_at app]. rewrite H, IH. reflexivity. Qed.
Lemma insert_end multi lt x l : Forall (fun y => lt x y = false /\ (multi = false -> lt y x = true)) l -> insert multi lt x l = l ++ [x].
Proof.
  intros F. unfold insert. assert (E : insert_at (fun y => lt x y) x l = l ++ [x]) by (apply insert_at_end; eapply Forall_impl; [|exact F]; cbn; tauto).
  destruct multi; [exact E|]. assert (H : existsb (fun y => negb (lt x y) && negb (lt y x)) l = false); [|rewrite H; exact E].
  clear E. induction F as [|y l [_ H] _ IH]; [reflexivity|]. cbn [existsb]. rewrite (H eq_refl). cbn [negb]. rewrite andb_false_r. exact IH.
Qed.

(* an object that a value can be read to: optionals and containers with insert are empty *)
Fixpoint fresh (t : ty) (old : val) : Prop :=
  match t with
  | T_optional _ => old = V_none
  | T_insert _ _ _ => list_of old = []
  | T_sequence t => Forall (fresh t) (list_of old)
  | T_pair a b => fresh a (first_of a old) /\ fresh b (second_of b old)
  | T_tuple _ t => fresh t old
  | _ => True
  end.
Lemma fresh_default t : fresh t (default t).
Proof. induction t; cbn; auto. Qed.
Lemma fresh_overwritten t : overwritten t = true -> forall old, fresh t old.
Proof.
  induction t; cbn; intros H old; auto; try discriminate.
  - apply Forall_forall. intros. apply IHt. exact H.
  - apply andb_prop in H. destruct H. auto.
Qed.
Lemma quot_mul x u : 0 < u -> Z.quot (x * u) u = x.
Proof. intros H. apply Z.quot_mul. lia. Qed.
Lemma read_write p p' t : compatible p p' -> forall v old rest, typed t v -> fresh t old -> read p' t old (write p t v ++ rest) = Read v rest.
Proof.
  intros C. induction t as [s| |n|u|t IH|t IH|m lt t IH| |a IHa b IHb|n t IH|]; intros v old rest T F.
  - destruct v; try contradiction. cbn [read write]. rewrite (read_write_num p p') by auto. reflexivity.
  - destruct v as [|l| | | | | |]; try contradiction. cbn [read write]. destruct T as [Ts _]. rewrite <- app_assoc, (read_write_size p p') by (auto; unfold sizes in Ts; lia). cbn [bind].
    destruct (Z.ltb_spec (Z.of_nat (length l)) 0); [lia|]. rewrite consume_app. reflexivity.
  - destruct v as [|l| | | | | |]; try contradiction. destruct T as [Tl _]. subst n. cbn [read write]. rewrite consume_app. reflexivity.
  - destruct v; try contradiction. destruct T as [U V]. cbn [read write]. rewrite (read_write_num p p') by auto. cbn [bind]. rewrite quot_mul by exact U. reflexivity.
  - cbn [fresh] in F. destruct v as [| | |v| | | |]; try contradiction; cbn [read write].
    + rewrite (read_write_num p p') by (auto; left; reflexivity). cbn [bind]. subst old. reflexivity.
    + rewrite <- app_assoc, (read_write_num p p') by (auto; right; reflexivity). cbn [bind]. change (1 =? 0) with false. cbv iota. rewrite IH by (auto using fresh_default). reflexivity.
  - destruct v as [| | | |l| | |]; try contradiction. destruct T as [Ts Tl]. cbn [read write fresh] in *. rewrite <- app_assoc, (read_write_size p p') by (auto; unfold sizes in Ts; lia). cbn [bind].
    destruct (Z.ltb_spec (Z.of_nat (length l)) 0); [lia|]. rewrite Nat2Z.id.
    match goal with |- bind (?loop _ _ _) _ = _ => assert (H' : forall olds, Forall (fresh t) olds -> loop (length l) olds (flat_map (write p t) l ++ rest) = Read l rest) end.
    { clear F Ts H. induction l as [|v l IHl]; intros olds Fo; [reflexivity|]. inversion Tl as [|? ? T1 T2]; subst. cbn [length flat_map]. rewrite <- app_assoc, IH; [|exact T1|destruct Fo; [apply fresh_default|exact H]].
      cbn [bind]. rewrite IHl; [reflexivity|exact T2|]. destruct Fo; [constructor|exact Fo]. }
    rewrite H' by exact F. reflexivity.
  - destruct v as [| | | |l| | |]; try contradiction. destruct T as (Ts & Tl & S). cbn [read write fresh] in *. rewrite <- app_assoc, (read_write_size p p') by (auto; unfold sizes in Ts; lia). cbn [bind].
    rewrite Nat2Z.id, F.
    match goal with |- ?loop _ _ _ = _ => assert (H' : forall done, StronglySorted (fun x y => lt y x = false /\ (m = false -> lt x y = true)) (done ++ l) -> loop (length l) done (flat_map (write p t) l ++ rest) = Read (V_list (done ++ l)) rest) end.
    { clear F Ts S. induction l as [|v l IHl]; intros done S; [rewrite app_nil_r; reflexivity|]. inversion Tl as [|? ? T1 T2]; subst. cbn [length flat_map]. rewrite <- app_assoc, IH by (auto using fresh_default).
      cbn [bind]. rewrite insert_end.
      - rewrite IHl; [rewrite <- app_assoc; reflexivity|exact T2|rewrite <- app_assoc; exact S].
      - clear -S. induction done as [|y done IHd]; [constructor|]. cbn [app] in S. inversion S as [|? ? S' Fy]; subst. constructor; [|apply IHd; exact S'].
        rewrite Forall_forall in Fy. apply Fy. apply in_or_app. right. left. reflexivity. }
    apply (H' []). exact S.
  - destruct v; try contradiction. reflexivity.
  - destruct v as [| | | | | |v w|]; try contradiction. destruct T as [Ta Tb]. destruct F as [Fa Fb]. cbn [read write]. rewrite <- app_assoc, IHa by auto. cbn [bind]. rewrite IHb by auto. reflexivity.
  - cbn [typed] in T. destruct T as [Ts T]. cbn [fresh] in F. assert (E : write p (T_tuple n t) v = write_size p (Z.of_nat n) ++ write p t v) by (destruct v; reflexivity). rewrite E. clear E. cbn [read].
    rewrite <- app_assoc, (read_write_size p p') by (auto; unfold sizes in Ts; lia). cbn [bind]. rewrite Z.eqb_refl. apply IH; auto.
  - destruct v as [| | | | | | |f g b d]; try contradiction. cbn [typed] in T. destruct T as [Tf T]. cbn [read write]. rewrite <- app_assoc, (read_write_num p p') by auto. cbn [bind].
    destruct (Z.eqb_spec f (-1)) as [E|E].
    + destruct T as (Eg & Eb & Ed). subst. reflexivity.
    + destruct T as (Pg & Pb & M & L & _). rewrite <- !app_assoc. rewrite (read_write_num p p') by (auto; cbn; lia). cbn [bind]. rewrite (read_write_num p p') by (auto; cbn; lia). cbn [bind].
      destruct (Z.ltb_spec (g + b) 0); [lia|]. rewrite <- L, consume_app. cbn [bind]. rewrite L. destruct (Z.ltb_spec 128 (g + b)); [lia|]. reflexivity.
Qed.
(* the bytes of the network archive don't depend on the host *)
Lemma write_num_network h h' s x : value_of s x -> write_num (Network h) s x = write_num (Network h') s x.
Proof. intros V. cbn [write_num]. rewrite (proj1 (encode_be h s x V)), (proj1 (encode_be h' s x V)). reflexivity. Qed.
Lemma write_network h h' t : forall v, typed t v -> write (Network h) t v = write (Network h') t v.
Proof.
  assert (Z0 : forall n, sizes n -> write_size (Network h) (Z.of_nat n) = write_size (Network h') (Z.of_nat n)) by (intros n H; apply write_num_network; unfold sizes in H; cbn; lia).
  induction t as [s| |n|u|t IH|t IH|m lt t IH| |a IHa b IHb|n t IH|]; intros v T; match goal with |- context [T_tuple] => idtac | _ => destruct v; try contradiction; cbn [write] end; cbn [typed] in T; auto.
  - apply write_num_network. exact T.
  - rewrite Z0 by apply T. reflexivity.
  - apply write_num_network. apply T.
  - apply write_num_network. left. reflexivity.
  - rewrite IH by exact T. f_equal. apply write_num_network. right. reflexivity.
  - destruct T as [Ts Tl]. rewrite Z0 by exact Ts. f_equal. clear Ts. induction Tl; [reflexivity|]. cbn [flat_map]. rewrite IH, IHTl by auto. reflexivity.
  - destruct T as (Ts & Tl & _). rewrite Z0 by exact Ts. f_equal. clear Ts. induction Tl; [reflexivity|]. cbn [flat_map]. rewrite IH, IHTl by auto. reflexivity.
  - destruct T. rewrite IHa, IHb by auto. reflexivity.
  - destruct T as [Ts T]. assert (E : forall p, write p (T_tuple n t) v = write_size p (Z.of_nat n) ++ write p t v) by (intros; destruct v; reflexivity). rewrite !E, Z0, IH by auto. reflexivity.
  - destruct T as [Tf T]. rewrite (write_num_network h h') by exact Tf. f_equal. destruct (format =? -1); [reflexivity|]. destruct T as (Pg & Pb & M & _). rewrite (write_num_network h h' T_long gtrid), (write_num_network h h' T_long bqual) by (cbn; lia). reflexivity.
Qed.
(* different values have different bytes, and no one's are a prefix of the other's *)
Lemma write_prefix_free p t v v' rest rest' : typed t v -> typed t v' -> write p t v ++ rest = write p t v' ++ rest' -> v = v' /\ rest = rest'.
Proof.
  intros T T' E. assert (C : compatible p p) by (destruct p; cbn; auto). pose proof (read_write p p t C v (default t) rest T (fresh_default t)) as R. pose proof (read_write p p t C v' (default t) rest' T' (fresh_default t)) as R'.
  rewrite E, R' in R. inversion R. auto.
Qed.

(* what is read, of any bytes, is a value of the type *)
From Coq Require Import ZArith List Bool Arith Lia Sorted.
From Verif Require Import Bytes BoModel BoSpec BoProofs ArcModel ArcSpec ArcProofs.
Import ListNotations.
Local Open Scope Z_scope.

Lemma forall_skipn {A} (P : A -> Prop) n l : Forall P l -> Forall P (skipn n l).
Proof. revert l; induction n as [|n IH]; intros l F; [exact F|]. destruct F; [constructor|]. cbn [skipn]. apply IH. assumption. Qed.
Lemma forall_firstn {A} (P : A -> Prop) n l : Forall P l -> Forall P (firstn n l).
Proof. revert l; induction n as [|n IH]; intros l F; [constructor|]. destruct F; [constructor|]. cbn [firstn]. constructor; auto. Qed.
Lemma to_signed_range n w : (0 < n)%nat -> 0 <= w < radix n -> - (radix n / 2) <= to_signed n w < radix n / 2.
Proof.
  intros N W. unfold to_signed. assert (E : radix n = 2 * (radix n / 2)).
  { destruct n as [|n]; [lia|]. rewrite radix_S. replace (256 * radix n) with (128 * radix n * 2) by lia. rewrite Z.div_mul by lia. lia. }
  destruct (Z.ltb_spec w (radix n / 2)); lia.
Qed.
Lemma of_word_value s w : 0 <= w < radix (width s) -> value_of s (of_word s w).
Proof.
  intros W. change (2 ^ 63) with 9223372036854775808 in *. destruct s; cbn [of_word width value_of] in *.
  - destruct (w =? 0); lia.
  - pose proof (to_signed_range 1 w ltac:(lia) W) as H. change (radix 1 / 2) with 128 in H. lia.
  - change (radix 1) with 256 in W. lia.
  - pose proof (to_signed_range 2 w ltac:(lia) W) as H. change (radix 2 / 2) with (2 ^ 15) in H. lia.
  - pose proof (to_signed_range 4 w ltac:(lia) W) as H. change (radix 4 / 2) with (2 ^ 31) in H. lia.
  - pose proof (to_signed_range 8 w ltac:(lia) W) as H. change (radix 8 / 2) with (2 ^ 63) in H. lia.
  - pose proof (to_signed_range 8 w ltac:(lia) W) as H. change (radix 8 / 2) with (2 ^ 63) in H. lia.
  - change (radix 4) with (2 ^ 32) in W. lia.
  - change (radix 8) with (2 ^ 64) in W. lia.
  - pose proof (to_signed_range 8 w ltac:(lia) W) as H. change (radix 8 / 2) with (2 ^ 63) in H. lia.
  - change (radix 8) with (2 ^ 64) in W. lia.
Qed.
Lemma decode_value h s l : Forall is_byte l -> length l = width s -> value_of s (decode h s (word h l)).
Proof.
  intros F L. pose proof (word_range h l F) as W. rewrite L in W.
  assert (B : 0 <= betoh h (width s) (word h l) < radix (width s)) by (rewrite <- L, betoh_word, L by exact F; rewrite <- L; apply un_be_range; exact F).
  destruct s; cbn [decode width value_of] in *.
  - destruct (word h l =? 0); lia.
  - pose proof (to_signed_range 1 _ ltac:(lia) W) as H. change (radix 1 / 2) with 128 in H. lia.
  - change (radix 1) with 256 in W. lia.
  - pose proof (to_signed_range 2 _ ltac:(lia) B) as H. change (radix 2 / 2) with (2 ^ 15) in H. lia.
  - pose proof (to_signed_range 4 _ ltac:(lia) B) as H. change (radix 4 / 2) with (2 ^ 31) in H. lia.
  - pose proof (to_signed_range 8 _ ltac:(lia) B) as H. change (radix 8 / 2) with (2 ^ 63) in H. lia.
  - pose proof (to_signed_range 8 _ ltac:(lia) B) as H. change (radix 8 / 2) with (2 ^ 63) in H. lia.
  - change (radix 4) with (2 ^ 32) in B. lia.
  - change (radix 8) with (2 ^ 64) in B. lia.
  - pose proof (to_signed_range 8 _ ltac:(lia) B) as H. change (radix 8 / 2) with (2 ^ 63) in H. lia.
  - change (2 ^ 64) with (radix 8). apply to_word_range.
Qed.
Lemma read_num_value p s d x rest : Forall is_byte d -> read_num p s d = Read x rest -> value_of s x /\ Forall is_byte rest.
Proof.
  intros F H. unfold read_num in H. destruct (Nat.ltb_spec (length d) (width s)) as [|L]; [discriminate|]. injection H as <- <-.
  assert (F1 : Forall is_byte (firstn (width s) d)) by (apply forall_firstn; exact F).
  assert (L1 : length (firstn (width s) d) = width s) by (rewrite firstn_length; lia).
  split; [|apply forall_skipn; exact F]. destruct p; [|apply decode_value; assumption].
  apply of_word_value. pose proof (word_range h _ F1) as W. rewrite L1 in W. exact W.
Qed.
Lemma consume_value n d l rest : Forall is_byte d -> 0 <= n -> consume n d = Read l rest -> Z.of_nat (length l) = n /\ Forall is_byte l /\ Forall is_byte rest.
Proof.
  intros F N H. unfold consume in H. destruct (Z.ltb_spec (Z.of_nat (length d)) n); [discriminate|]. injection H as <- <-.
  rewrite firstn_length. split; [lia|]. split; [apply forall_firstn|apply forall_skipn]; exact F.
Qed.
(* containers *)
Section Order.
Context (P : val -> Prop) (multi : bool) (lt : val -> val -> bool) (O : strict_weak P lt).
Let R x y := lt y x = false /\ (multi = false -> lt x y = true).
Lemma insert_at_forall (Q : val -> Prop) f x l : Q x -> Forall Q l -> Forall Q (insert_at f x l).
Proof. intros X F. induction F as [|y l Y F IH]; cbn [insert_at]; [repeat constructor; exact X|]. destruct (f y); repeat (constructor; auto). Qed.
Lemma insert_at_sorted x l : P x -> Forall P l -> StronglySorted R l -> (multi = false -> Forall (fun y => lt x y = true \/ lt y x = true) l) ->
  StronglySorted R (insert_at (fun y => lt x y) x l).
Proof.
  destruct O as [O1 [O2 O3]]. intros X PL S. induction S as [|y l S IH H]; intros U; cbn [insert_at]; [repeat constructor|].
  inversion PL as [|? ? Py Pl]; subst. destruct (lt x y) eqn:E.
  - constructor; [constructor; assumption|]. constructor; [split; [apply O1|]; auto|].
    rewrite Forall_forall in *. intros z Z. destruct (H z Z) as [H1 H2]. split.
    + apply O3 with y; auto. (* lt z y = false, lt y x = false -> lt z x = false *)
    + intros M. apply O2 with y; auto.
  - constructor.
    + apply IH; [exact Pl|]. intros M. specialize (U M). inversion U; assumption.
    + apply insert_at_forall; [|exact H]. split; [exact E|]. intros M. specialize (U M). inversion U as [|? ? [E'|E'] ?]; subst; [congruence|exact E'].
Qed.
End Order.
Lemma insert_sorted (P : val -> Prop) (multi : bool) lt x l : strict_weak P lt -> P x -> Forall P l ->
  StronglySorted (fun x y => lt y x = false /\ (multi = false -> lt x y = true)) l ->
  StronglySorted (fun x y => lt y x = false /\ (multi = false -> lt x y = true)) (insert multi lt x l) /\ Forall P (insert multi lt x l) /\
  (length (insert multi lt x l) <= S (length l))%nat.
Proof.
  intros O X PL HS. assert (L : forall f, length (insert_at f x l) = S (length l)).
  { intros f. clear. induction l as [|y l IH]; [reflexivity|]. cbn [insert_at]. destruct (f y); [reflexivity|]. cbn [length]. rewrite IH. reflexivity. }
  pose proof (insert_at_sorted P multi lt O x l X PL HS) as A.
  unfold insert. destruct multi.
  - rewrite L. split; [|split; [apply insert_at_forall; assumption|lia]]. apply A. discriminate.
  - destruct (existsb _ l) eqn:E; [repeat split; auto|]. rewrite L. split; [|split; [apply insert_at_forall; assumption|lia]].
    apply A. intros _. apply Forall_forall. intros y Y.
    destruct (lt x y) eqn:A1; [left; reflexivity|]. destruct (lt y x) eqn:B; [right; reflexivity|]. exfalso.
    assert (existsb (fun y => negb (lt x y) && negb (lt y x)) l = true); [|congruence]. apply existsb_exists. exists y. rewrite A1, B. auto.
Qed.

Lemma read_typed p t : regular t -> forall d v rest, Forall is_byte d -> read p t (default t) d = Read v rest -> typed t v /\ Forall is_byte rest.
Proof.
  change (2 ^ 63) with 9223372036854775808.
  induction t as [s| |n|u|t IH|t IH|multi lt t IH| |a IHa b IHb|n t IH|]; intros R d v rest F H; cbn [regular read default first_of second_of list_of] in *.
  - destruct (read_num p s d) as [x d'| | |] eqn:E; try discriminate. injection H as <- <-. exact (read_num_value p s d x d' F E).
  - unfold read_size in H. destruct (read_num p T_size d) as [x d'| | |] eqn:E; try discriminate. cbn [bind] in H. destruct (read_num_value p T_size d x d' F E) as [V F'].
    destruct (Z.ltb_spec x 0) as [|X]; [discriminate|]. destruct (consume x d') as [l d''| | |] eqn:E2; try discriminate. injection H as <- <-.
    destruct (consume_value x d' l d'' F' X E2) as [L [B F'']]. cbn [typed]. unfold sizes. cbn [value_of] in V. change (2 ^ 63) with 9223372036854775808 in *. repeat split; auto; lia.
  - destruct (consume (Z.of_nat n) d) as [l d'| | |] eqn:E; try discriminate. injection H as <- <-. destruct (consume_value _ d l d' F (Nat2Z.is_nonneg n) E) as [L [B F']]. cbn [typed]. repeat split; auto; lia.
  - destruct (read_num p T_long d) as [x d'| | |] eqn:E; try discriminate. injection H as <- <-. destruct (read_num_value p T_long d x d' F E) as [V F']. cbn [typed value_of] in *.
    split; [split; [exact R|]|exact F']. change (2 ^ 63) with 9223372036854775808 in *. clear E F F'.
    pose proof (Z.quot_rem' x u) as Q. destruct (Z.le_gt_cases 0 x) as [N|N].
    + pose proof (Z.rem_nonneg x u ltac:(lia) N). pose proof (Z.quot_pos x u N ltac:(lia)). nia.
    + pose proof (Z.rem_nonpos x u ltac:(lia) ltac:(lia)). assert (Z.quot x u <= 0) by (pose proof (Z.quot_pos (- x) u ltac:(lia) ltac:(lia)) as K; rewrite Z.quot_opp_l in K; lia). nia.
  - destruct (read_num p T_bool d) as [x d'| | |] eqn:E; try discriminate. cbn [bind] in H. destruct (read_num_value p T_bool d x d' F E) as [V F'].
    destruct (x =? 0); [injection H as <- <-; cbn; auto|]. destruct (read p t (default t) d') as [w d''| | |] eqn:E2; try discriminate. injection H as <- <-. cbn [typed]. exact (IH R d' w d'' F' E2).
  - unfold read_size in H. destruct (read_num p T_size d) as [x d'| | |] eqn:E; try discriminate. cbn [bind] in H. destruct (read_num_value p T_size d x d' F E) as [V F'].
    destruct (Z.ltb_spec x 0) as [|X]; [discriminate|].
    match type of H with bind (?f _ _ _) _ = _ => set (loop := f) in H end.
    assert (LP : forall k d l r, Forall is_byte d -> loop k [] d = Read l r -> length l = k /\ Forall (typed t) l /\ Forall is_byte r).
    { clear - IH R. intros k. induction k as [|k IHk]; intros d l r F H; cbn [loop] in H; [injection H as <- <-; auto|]. fold loop in H. cbn [hd tl] in H.
      destruct (read p t (default t) d) as [w d1| | |] eqn:E; try discriminate. cbn [bind] in H. destruct (IH R d w d1 F E) as [T F1].
      destruct (loop k [] d1) as [ws d2| | |] eqn:E2; try discriminate. injection H as <- <-. destruct (IHk d1 ws d2 F1 E2) as [L [TS F2]]. cbn [length]. auto. }
    destruct (loop (Z.to_nat x) [] d') as [l d''| | |] eqn:E2; try discriminate. injection H as <- <-. destruct (LP _ _ _ _ F' E2) as [L [T F2]].
    cbn [typed]. unfold sizes. cbn [value_of] in V. change (2 ^ 63) with 9223372036854775808 in *. repeat split; auto; lia.
  - destruct R as [R O]. unfold read_size in H. destruct (read_num p T_size d) as [x d'| | |] eqn:E; try discriminate. cbn [bind] in H. destruct (read_num_value p T_size d x d' F E) as [V F'].
    match type of H with ?f _ _ _ = _ => set (loop := f) in H end.
    assert (LP : forall k l0 d w r, Forall is_byte d -> Forall (typed t) l0 -> StronglySorted (fun x y => lt y x = false /\ (multi = false -> lt x y = true)) l0 -> loop k l0 d = Read w r ->
      exists l, w = V_list l /\ (length l <= length l0 + k)%nat /\ Forall (typed t) l /\ StronglySorted (fun x y => lt y x = false /\ (multi = false -> lt x y = true)) l /\ Forall is_byte r).
    { clear - IH R O. intros k. induction k as [|k IHk]; intros l0 d w r F T0 S0 H; cbn [loop] in H.
      - injection H as <- <-. exists l0. repeat split; auto; lia.
      - fold loop in H. destruct (read p t (default t) d) as [w1 d1| | |] eqn:E; try discriminate. cbn [bind] in H. destruct (IH R d w1 d1 F E) as [T1 F1].
        destruct (insert_sorted (typed t) multi lt w1 l0 O T1 T0 S0) as [A [B C]]. destruct (IHk _ _ _ _ F1 B A H) as [l [E1 [L [T [S' F2]]]]]. exists l. repeat split; auto; lia. }
    destruct (LP _ _ _ _ _ F' (Forall_nil _) (SSorted_nil _) H) as [l [E1 [L [T [S' F2]]]]]. subst v. cbn [typed length] in *. unfold sizes. cbn [value_of] in V. change (2 ^ 63) with 9223372036854775808 in *.
    repeat split; auto; lia.
  - injection H as <- <-. cbn; auto.
  - destruct R as [Ra Rb]. destruct (read p a (default a) d) as [w d'| | |] eqn:E; try discriminate. cbn [bind] in H. destruct (IHa Ra d w d' F E) as [Ta F'].
    destruct (read p b (default b) d') as [w' d''| | |] eqn:E2; try discriminate. injection H as <- <-. destruct (IHb Rb d' w' d'' F' E2) as [Tb F'']. cbn [typed]. auto.
  - destruct R as [N R]. unfold read_size in H. destruct (read_num p T_size d) as [x d'| | |] eqn:E; try discriminate. cbn [bind] in H. destruct (read_num_value p T_size d x d' F E) as [V F'].
    destruct (x =? Z.of_nat n); [|discriminate]. destruct (IH R d' v rest F' H) as [T F'']. cbn [typed]. destruct v; auto.
  - contradiction.
Qed.

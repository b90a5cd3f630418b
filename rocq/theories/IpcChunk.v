(* The datagrams of a message, and putting them together. *)
From Coq Require Import ZArith List Bool Arith Lia.
From Verif Require Import IpcModel IpcSpec.
Import ListNotations.

Definition cut (max : nat) (m : msg) (i : nat) : transport :=
  mk_t (m_type m) (m_corr m) (i * max) (length (m_payload m)) (firstn max (skipn (i * max) (m_payload m))).

Lemma skipn_skipn {A} (a b : nat) (l : list A) : skipn a (skipn b l) = skipn (b + a) l.
Proof. revert l. induction b as [|b IH]; intros l; [reflexivity|]. destruct l as [|x l]; [rewrite !skipn_nil; reflexivity|]. cbn. apply IH. Qed.

Lemma parts_spec max m : 0 < max -> forall fuel i, length (m_payload m) - i * max < fuel -> (i = 0 \/ i * max < length (m_payload m)) ->
  let ds := parts fuel max m (i * max) (skipn (i * max) (m_payload m)) in
  1 <= length ds /\
  forall j t, nth_error ds j = Some t -> t = cut max m (i + j) /\
    (S j = length ds -> (i + j) * max + length (t_data t) = length (m_payload m)) /\
    (S j < length ds -> length (t_data t) = max /\ S (i + j) * max < length (m_payload m)).
Proof.
  intros Hm. set (p := m_payload m). induction fuel as [|f IH]; intros i Hf Hi; [lia|].
  cbn [parts]. set (rest := skipn (i * max) p) in *.
  assert (Hr : length rest = length p - i * max) by (unfold rest; apply skipn_length).
  set (n := if max <? length rest then max else length rest).
  assert (Hn : firstn n rest = firstn max rest).
  { unfold n. destruct (Nat.ltb_spec max (length rest)); [reflexivity|]. rewrite !firstn_all2 by lia. reflexivity. }
  assert (H0 : cut max m (i + 0) = mk_t (m_type m) (m_corr m) (i * max) (length p) (firstn n rest)).
  { unfold cut. rewrite Nat.add_0_r, Hn. reflexivity. }
  destruct (skipn n rest) as [|x more] eqn:E.
  - assert (Hz : length rest <= n) by (apply (f_equal (@length byte)) in E; rewrite skipn_length in E; cbn in E; lia).
    assert (length rest <= max) by (unfold n in Hz; destruct (Nat.ltb_spec max (length rest)); lia).
    cbn [length]. split; [lia|]. intros [|j] t Ht; cbn in Ht; [|destruct j; discriminate]. injection Ht as <-. rewrite H0. split; [reflexivity|].
    split; [|lia]. intros _. cbn [t_data]. rewrite Hn, firstn_length_le2 || rewrite Hn. rewrite firstn_all2 by lia.
    rewrite Nat.add_0_r, Hr. destruct Hi; subst; lia.
  - assert (Hgt : max < length rest /\ n = max).
    { apply (f_equal (@length byte)) in E. rewrite skipn_length in E. cbn in E. unfold n in *. destruct (Nat.ltb_spec max (length rest)); lia. }
    destruct Hgt as [Hgt Hnm]. 
    assert (Hlt : S i * max < length p) by lia.
    assert (Hsk : x :: more = skipn (S i * max) p).
    { rewrite <- E. unfold rest. rewrite skipn_skipn. f_equal. lia. }
    rewrite Hsk. replace (i * max + n) with (S i * max) by lia.
    destruct (IH (S i)) as [IH1 IH2]; [lia|right; exact Hlt|]. set (ds := parts f max m (S i * max) (skipn (S i * max) p)) in *.
    cbn [length]. split; [lia|]. intros [|j] t Ht; cbn [nth_error] in Ht.
    + injection Ht as <-. rewrite H0. split; [reflexivity|]. split; [lia|]. intros _. cbn [t_data]. rewrite Hn. rewrite firstn_length. split; [lia|].
      rewrite Nat.add_0_r. exact Hlt.
    + destruct (IH2 j t Ht) as (A & B & C). replace (i + S j) with (S i + j) by lia. split; [exact A|]. split; [intros; apply B; lia|intros; apply C; lia].
Qed.

Lemma datagrams_len max m : 0 < max -> 1 <= length (datagrams max m).
Proof. intros H. destruct (parts_spec max m H (S (length (m_payload m))) 0) as [A _]; [lia|left; reflexivity|]. exact A. Qed.
Lemma datagrams_nth max m j t : 0 < max -> nth_error (datagrams max m) j = Some t -> t = cut max m j /\
    (S j = length (datagrams max m) -> j * max + length (t_data t) = length (m_payload m)) /\
    (S j < length (datagrams max m) -> length (t_data t) = max /\ S j * max < length (m_payload m)).
Proof. intros H Ht. destruct (parts_spec max m H (S (length (m_payload m))) 0) as [_ B]; [lia|left; reflexivity|]. exact (B j t Ht). Qed.
Lemma datagrams_inside max m i : 0 < max -> 0 < i -> i < length (datagrams max m) -> i * max < length (m_payload m).
Proof.
  intros H Hi Hl. destruct (nth_error (datagrams max m) (i - 1)) as [t|] eqn:E.
  - destruct (datagrams_nth max m _ t H E) as (_ & _ & C). destruct C as [_ C]; [lia|]. replace (S (i - 1)) with i in C by lia. exact C.
  - apply nth_error_None in E. lia.
Qed.
Lemma datagram_key max m j t : 0 < max -> nth_error (datagrams max m) j = Some t -> t_key t = m_key m.
Proof. intros H Ht. destruct (datagrams_nth _ _ _ _ H Ht) as (-> & _). reflexivity. Qed.

(* ---------------------------------------------------------------- putting together *)
Record partial (max : nat) (m : msg) (i : nat) (c : complete) : Prop := mk_partial {
  pa_type : c_type c = m_type m; pa_corr : c_corr c = m_corr m; pa_len : length (c_payload c) = length (m_payload m);
  pa_off : c_offset c = i * max; pa_pre : firstn (i * max) (c_payload c) = firstn (i * max) (m_payload m);
  pa_in : i * max <= length (m_payload m) }.

Lemma partial_incomplete max m i c : 0 < max -> partial max m i c -> 0 < i -> i < length (datagrams max m) -> is_complete c = false.
Proof. intros H P Hi Hl. unfold is_complete. rewrite (pa_len _ _ _ _ P), (pa_off _ _ _ _ P). pose proof (datagrams_inside max m i H Hi Hl). apply Nat.eqb_neq. lia. Qed.

Lemma firstn_app_exact {A} n (a b : list A) : length a = n -> firstn n (a ++ b) = a.
Proof. intros <-. rewrite firstn_app, Nat.sub_diag, firstn_all. cbn. apply app_nil_r. Qed.

Lemma firstn_step {A} a b (l : list A) : firstn (a + b) l = firstn a l ++ firstn b (skipn a l).
Proof. revert l. induction a as [|a IH]; intros [|x l]; cbn; try reflexivity; [rewrite firstn_nil; reflexivity|]. f_equal. apply IH. Qed.

Lemma add_next max m i t c : 0 < max -> partial max m i c -> nth_error (datagrams max m) i = Some t ->
  exists c', add t c = Some c' /\ (S i = length (datagrams max m) -> c' = whole m) /\ (S i < length (datagrams max m) -> partial max m (S i) c').
Proof.
  intros H P Ht. destruct (datagrams_nth _ _ _ _ H Ht) as (E & B & C). destruct P as [P1 P2 P3 P4 P5 P6].
  assert (Hi : i < length (datagrams max m)) by (apply nth_error_Some; congruence).
  unfold add. assert (Ho : t_offset t = i * max) by (rewrite E; reflexivity).
  assert (Hd : t_data t = firstn max (skipn (i * max) (m_payload m))) by (rewrite E; reflexivity).
  assert (Hfit : i * max + length (t_data t) <= length (m_payload m)).
  { rewrite Hd, firstn_length, skipn_length. lia. }
  rewrite Ho, P4, Nat.ltb_irrefl, P3.
  destruct (Nat.ltb_spec (length (m_payload m)) (i * max + length (t_data t))) as [?|_]; [lia|].
  eexists; split; [reflexivity|]. split; intros Hl.
  - specialize (B Hl). unfold whole. rewrite P1, P2, B. f_equal. unfold copy_at. rewrite P5, B, <- P3, skipn_all, app_nil_r, Hd.
    rewrite <- (firstn_skipn (i * max) (m_payload m)) at 3. f_equal. apply firstn_all2. rewrite skipn_length. rewrite Hd, firstn_length, skipn_length in B. lia.
  - destruct (C Hl) as [C1 C2]. constructor; cbn [c_type c_corr c_payload c_offset]; auto.
    + unfold copy_at. rewrite !app_length, firstn_length, skipn_length. lia.
    + rewrite C1. lia.
    + unfold copy_at. rewrite app_assoc. rewrite firstn_app_exact.
      * rewrite P5. replace (S i * max) with (i * max + max) by lia. rewrite firstn_step, Hd. reflexivity.
      * rewrite app_length, firstn_length, C1. lia.
    + lia.
Qed.

Lemma add_again max m i j t c : 0 < max -> partial max m i c -> j < i -> nth_error (datagrams max m) j = Some t -> add t c = Some c.
Proof.
  intros H P Hj Ht. destruct (datagrams_nth _ _ _ _ H Ht) as (E & _). unfold add. rewrite E, (pa_off _ _ _ _ P). cbn [cut t_offset].
  destruct (Nat.ltb_spec (j * max) (i * max)); [reflexivity|nia].
Qed.

Lemma fresh_first max m t : 0 < max -> nth_error (datagrams max m) 0 = Some t ->
  exists c', fresh t = Some c' /\ (1 = length (datagrams max m) -> c' = whole m) /\ (1 < length (datagrams max m) -> partial max m 1 c').
Proof.
  intros H Ht. unfold fresh. destruct (datagrams_nth _ _ _ _ H Ht) as (E & _). apply (add_next max m 0 t); auto. rewrite E. constructor; cbn; auto; [apply repeat_length|lia].
Qed.

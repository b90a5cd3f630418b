From Coq Require Import ZArith List Bool Arith Lia Permutation.
From Verif Require Import Bytes BoModel BoSpec BoProofs TcpModel TcpSpec.
Import ListNotations.

Definition head (hs : host) (m : tmsg) : list Z := c_head (outgoing hs m).
Definition frame (hs : host) (m : tmsg) : list Z := head hs m ++ tm_payload m.
Definition total (m : tmsg) : nat := header_size + length (tm_payload m).
Definition part (hs : host) (m : tmsg) (o : nat) : complete :=
  mk_c (firstn o (head hs m) ++ repeat 0%Z (header_size - o))
       (if (o <? header_size)%nat then [] else firstn (o - header_size) (tm_payload m) ++ repeat 0%Z (length (tm_payload m) - (o - header_size))) o.
Definition full (hs : host) (m : tmsg) : complete := mk_c (head hs m) (tm_payload m) (total m).

Lemma memory_length h n v : length (memory h n v) = n.
Proof. unfold memory. destruct h; [apply le_length | apply be_length]. Qed.
Lemma head_length hs m : good m -> length (head hs m) = header_size.
Proof. intros (_ & _ & L & _). unfold head, outgoing. cbn [c_head]. rewrite !app_length, !memory_length, L. reflexivity. Qed.
Lemma frame_length hs m : good m -> length (frame hs m) = total m.
Proof. intros G. unfold frame, total. rewrite app_length, head_length; auto. Qed.
Lemma value_long m : good m -> value_of T_long (tm_type m).
Proof. intros (_ & H & _). unfold value_of. cbn. exact H. Qed.
Lemma value_size m : good m -> value_of T_size (Z.of_nat (length (tm_payload m))).
Proof. intros (_ & _ & _ & _ & _ & H). unfold value_of. cbn. lia. Qed.
Lemma head_type hs hr m p o : good m -> c_type hr (mk_c (head hs m) p o) = tm_type m.
Proof.
  intros G. unfold c_type, head, outgoing. cbn [c_head]. rewrite firstn_app, memory_length, Nat.sub_diag, firstn_O, app_nil_r, firstn_all2 by (rewrite memory_length; lia).
  apply (across_hosts hs hr T_long). apply value_long; auto.
Qed.
Lemma head_corr hs m p o : good m -> c_corr (mk_c (head hs m) p o) = tm_corr m.
Proof.
  intros (_ & _ & L & _). unfold c_corr, head, outgoing. cbn [c_head]. rewrite skipn_app, memory_length, Nat.sub_diag, skipn_O, skipn_all2 by (rewrite memory_length; lia).
  cbn [app]. rewrite firstn_app, L, Nat.sub_diag, firstn_O, app_nil_r. apply firstn_all2. lia.
Qed.
Lemma head_size hs hr m p o : good m -> c_size hr (mk_c (head hs m) p o) = Z.of_nat (length (tm_payload m)).
Proof.
  intros G. assert (L : length (tm_corr m) = 16%nat) by apply G. unfold c_size, head, outgoing. cbn [c_head].
  rewrite app_assoc, skipn_app, app_length, memory_length, L. replace (24 - (8 + 16))%nat with 0%nat by lia. rewrite skipn_O, skipn_all2 by (rewrite app_length, memory_length; lia).
  cbn [app]. apply (across_hosts hs hr T_size). apply value_size; auto.
Qed.
Lemma full_complete hs hr m : good m -> is_complete hr (full hs m) = true.
Proof.
  intros G. unfold is_complete, full. rewrite (head_type hs hr m) by auto. cbn [c_offset c_payload]. unfold total. rewrite Nat.eqb_refl, andb_true_r.
  apply negb_true_iff, Z.eqb_neq. apply G.
Qed.
Lemma full_msg hs hr m : good m -> msg_of hr (full hs m) = m.
Proof. intros G. unfold msg_of, full. rewrite head_type, head_corr by auto. cbn. destruct m; reflexivity. Qed.
Lemma part_total hs m : good m -> part hs m (total m) = full hs m.
Proof.
  intros G. unfold part, full, total. pose proof (head_length hs m G) as L.
  destruct (header_size + length (tm_payload m) <? header_size)%nat eqn:E; [apply Nat.ltb_lt in E; lia|].
  replace (header_size - (header_size + length (tm_payload m)))%nat with 0%nat by lia.
  replace (header_size + length (tm_payload m) - header_size)%nat with (length (tm_payload m)) by lia. rewrite Nat.sub_diag. cbn [repeat]. rewrite !app_nil_r.
  rewrite !firstn_all2 by lia. reflexivity.
Qed.
Lemma part_blank hs m : part hs m 0 = blank.
Proof. reflexivity. Qed.
Lemma part_incomplete hs hr m o : (o < total m)%nat -> is_complete hr (part hs m o) = false.
Proof.
  intros Ho. unfold is_complete. apply andb_false_iff. right. unfold part, total in *. cbn [c_offset c_payload]. apply Nat.eqb_neq.
  destruct (o <? header_size)%nat eqn:E; [apply Nat.ltb_lt in E; cbn [length]; lia|]. apply Nat.ltb_ge in E.
  rewrite app_length, repeat_length, firstn_length. lia.
Qed.

Lemma firstn_skipn_add (A : Type) o d (H : list A) : firstn o H ++ firstn d (skipn o H) = firstn (o + d) H.
Proof. revert H. induction o as [|o IH]; intros H; [reflexivity|]. destruct H as [|x H]; cbn [firstn skipn app plus]; [now rewrite !firstn_nil|rewrite IH; reflexivity]. Qed.
Lemma write_at_next (H : list Z) o d z : (o + d <= length H)%nat -> (o + d + z = length H)%nat ->
  write_at o (firstn d (skipn o H)) (firstn o H ++ repeat 0%Z (length H - o)) = firstn (o + d) H ++ repeat 0%Z z.
Proof.
  intros L E. unfold write_at.
  assert (Lf : length (firstn o H) = o) by (rewrite firstn_length; lia).
  assert (Ld : length (firstn d (skipn o H)) = d) by (rewrite firstn_length, skipn_length; lia). rewrite Ld.
  replace (firstn o (firstn o H ++ repeat 0%Z (length H - o))) with (firstn o H)
    by (rewrite firstn_app, Lf, Nat.sub_diag, firstn_O, app_nil_r, firstn_firstn, Nat.min_id; reflexivity).
  replace (skipn (o + d) (firstn o H ++ repeat 0%Z (length H - o))) with (repeat 0%Z z).
  - rewrite app_assoc, firstn_skipn_add. reflexivity.
  - rewrite skipn_app, Lf. rewrite (skipn_all2 (firstn o H)) by lia. replace (o + d - o)%nat with d by lia. cbn [app].
    replace (length H - o)%nat with (d + z)%nat by lia. rewrite repeat_app, skipn_app, repeat_length, Nat.sub_diag, skipn_O.
    rewrite skipn_all2 by (rewrite repeat_length; lia). reflexivity.
Qed.

Lemma firstn_prefix (A : Type) n (w u s r : list A) : w ++ u = s ++ r -> (n <= length s)%nat -> (n <= length w)%nat -> firstn n w = firstn n s.
Proof.
  intros E L L'. transitivity (firstn n (w ++ u)).
  - rewrite firstn_app. replace (n - length w)%nat with 0%nat by lia. rewrite firstn_O, app_nil_r. reflexivity.
  - rewrite E, firstn_app. replace (n - length s)%nat with 0%nat by lia. rewrite firstn_O, app_nil_r. reflexivity.
Qed.
Lemma skipn_prefix (A : Type) n (w u s r : list A) : w ++ u = s ++ r -> (n <= length s)%nat -> (n <= length w)%nat -> skipn n w ++ u = skipn n s ++ r.
Proof.
  intros E L L'. transitivity (skipn n (w ++ u)).
  - rewrite skipn_app. replace (n - length w)%nat with 0%nat by lia. reflexivity.
  - rewrite E, skipn_app. replace (n - length s)%nat with 0%nat by lia. reflexivity.
Qed.
Lemma skipn_skipn' (A : Type) a b (l : list A) : skipn a (skipn b l) = skipn (b + a) l.
Proof. revert l. induction b; intros l; [reflexivity|]. destruct l; cbn [skipn plus]; [now rewrite !skipn_nil|apply IHb]. Qed.

Lemma recv_head_part hs hr k m o w u r : good m -> (o < total m)%nat -> w ++ u = skipn o (frame hs m) ++ r ->
  exists n, recv_head hr k (part hs m o) w = Some (part hs m (o + n), skipn n w) /\ (n <= length w)%nat /\ (o + n < total m)%nat /\
    ((o < header_size)%nat -> w <> [] -> (0 < n)%nat) /\ ((o < header_size)%nat \/ n = 0%nat).
Proof.
  intros G Ho E. assert (Hp : (0 < length (tm_payload m))%nat) by apply G. pose proof (head_length hs m G) as LH.
  unfold recv_head. cbn [part c_offset c_payload c_head]. destruct (o <? header_size)%nat eqn:Eo; [|exists 0%nat; rewrite Nat.add_0_r; apply Nat.ltb_ge in Eo; repeat split; auto; try lia].
  apply Nat.ltb_lt in Eo. unfold recv. destruct (header_size - o =? 0)%nat eqn:Ez; [apply Nat.eqb_eq in Ez; lia|]. apply Nat.eqb_neq in Ez.
  remember (Nat.min (S k) (header_size - o)) as q eqn:Eq. set (n := Nat.min q (length w)). assert (En : n = Nat.min q (length w)) by reflexivity. clearbody n.
  assert (Ff : firstn q w = firstn n (skipn o (head hs m))).
  { transitivity (firstn n w). { subst n. destruct (Nat.le_ge_cases q (length w)); [rewrite Nat.min_l by lia; reflexivity|]. rewrite Nat.min_r by lia. rewrite !firstn_all2 by lia. reflexivity. }
    rewrite (firstn_prefix _ n w u (skipn o (frame hs m)) r E) by (rewrite ?skipn_length, ?frame_length by auto; unfold total; lia).
    unfold frame. rewrite skipn_app. replace (o - length (head hs m))%nat with 0%nat by lia. rewrite skipn_O, firstn_app.
    replace (n - length (skipn o (head hs m)))%nat with 0%nat by (rewrite skipn_length; lia). rewrite firstn_O, app_nil_r. reflexivity. }
  assert (Fs : skipn q w = skipn n w).
  { subst n. destruct (Nat.le_ge_cases q (length w)); [rewrite Nat.min_l by lia; reflexivity|]. rewrite Nat.min_r by lia. rewrite !skipn_all2 by lia. reflexivity. }
  rewrite Ff, Fs. assert (Ld : length (firstn n (skipn o (head hs m))) = n) by (rewrite firstn_length, skipn_length; lia). rewrite Ld.
  replace (repeat 0%Z (header_size - o)) with (repeat 0%Z (length (head hs m) - o)) by (rewrite LH; reflexivity).
  rewrite (write_at_next (head hs m) o n (header_size - (o + n))) by lia.
  assert (Pos : w <> [] -> (0 < n)%nat) by (intros Hw; destruct w; [congruence|cbn [length] in En; lia]).
  exists n. cbn [c_offset c_head c_payload]. destruct (o + n =? header_size)%nat eqn:Eh.
  - apply Nat.eqb_eq in Eh. rewrite Eh, Nat.sub_diag. cbn [repeat]. rewrite app_nil_r, firstn_all2 by lia.
    rewrite (head_size hs hr m) by auto. destruct (Z.of_nat (length (tm_payload m)) <? 0)%Z eqn:Ec; [apply Z.ltb_lt in Ec; lia|].
    split; [|unfold total; repeat split; auto; lia]. unfold part. rewrite !Nat.sub_diag, Nat2Z.id. cbn [repeat firstn app length]. rewrite app_nil_r, firstn_nil, !Nat.sub_0_r.
    rewrite firstn_all2 by lia. reflexivity.
  - apply Nat.eqb_neq in Eh. split; [|unfold total; repeat split; auto; lia]. unfold part. destruct (o + n <? header_size)%nat eqn:El; [reflexivity|apply Nat.ltb_ge in El; lia].
Qed.

Lemma recv_payload_part hs k m o w u r : good m -> (o < total m)%nat -> w ++ u = skipn o (frame hs m) ++ r ->
  exists n, recv_payload k (part hs m o) w = Some (part hs m (o + n), skipn n w) /\ (n <= length w)%nat /\ (o + n <= total m)%nat /\
    ((header_size <= o)%nat -> w <> [] -> (0 < n)%nat) /\ ((header_size <= o)%nat \/ n = 0%nat).
Proof.
  intros G Ho E. pose proof (head_length hs m G) as LH.
  unfold recv_payload. cbn [part c_offset c_payload c_head]. destruct (header_size <=? o)%nat eqn:Eo; [|exists 0%nat; rewrite Nat.add_0_r; apply Nat.leb_gt in Eo; repeat split; auto; try lia].
  apply Nat.leb_le in Eo. destruct (o <? header_size)%nat eqn:Eo'; [apply Nat.ltb_lt in Eo'; lia|].
  unfold total in *. set (j := (o - header_size)%nat) in *.
  assert (Ll : length (firstn j (tm_payload m) ++ repeat 0%Z (length (tm_payload m) - j)) = length (tm_payload m)) by (rewrite app_length, firstn_length, repeat_length; lia).
  rewrite Ll. unfold recv. destruct (length (tm_payload m) - j =? 0)%nat eqn:Ez; [apply Nat.eqb_eq in Ez; lia|]. apply Nat.eqb_neq in Ez.
  remember (Nat.min (S k) (length (tm_payload m) - j)) as q eqn:Eq. set (n := Nat.min q (length w)). assert (En : n = Nat.min q (length w)) by reflexivity. clearbody n.
  assert (Sk : skipn o (frame hs m) = skipn j (tm_payload m)).
  { unfold frame. rewrite skipn_app, skipn_all2 by lia. rewrite LH. reflexivity. }
  assert (Ff : firstn q w = firstn n (skipn j (tm_payload m))).
  { transitivity (firstn n w). { subst n. destruct (Nat.le_ge_cases q (length w)); [rewrite Nat.min_l by lia; reflexivity|]. rewrite Nat.min_r by lia. rewrite !firstn_all2 by lia. reflexivity. }
    rewrite (firstn_prefix _ n w u (skipn o (frame hs m)) r E) by (rewrite ?skipn_length, ?frame_length by auto; unfold total; lia). rewrite Sk. reflexivity. }
  assert (Fs : skipn q w = skipn n w).
  { subst n. destruct (Nat.le_ge_cases q (length w)); [rewrite Nat.min_l by lia; reflexivity|]. rewrite Nat.min_r by lia. rewrite !skipn_all2 by lia. reflexivity. }
  rewrite Ff, Fs. assert (Ld : length (firstn n (skipn j (tm_payload m))) = n) by (rewrite firstn_length, skipn_length; lia). rewrite Ld.
  rewrite (write_at_next (tm_payload m) j n (length (tm_payload m) - (j + n))) by lia.
  assert (Pos : w <> [] -> (0 < n)%nat) by (intros Hw; destruct w; [congruence|cbn [length] in En; lia]).
  exists n. split; [|repeat split; auto; lia]. unfold part. destruct (o + n <? header_size)%nat eqn:El; [apply Nat.ltb_lt in El; lia|].
  rewrite (firstn_all2 (head hs m)) by lia. rewrite (firstn_all2 (head hs m)) by lia.
  replace (o + n - header_size)%nat with (j + n)%nat by lia. replace (header_size - (o + n))%nat with (header_size - o)%nat by lia. reflexivity.
Qed.

Lemma receive_part hs hr k1 k2 m o w u r : good m -> (o < total m)%nat -> w ++ u = skipn o (frame hs m) ++ r ->
  exists n, receive hr k1 k2 (part hs m o) w = Some (part hs m (o + n), skipn n w) /\ (n <= length w)%nat /\ (o + n <= total m)%nat /\ (w <> [] -> (0 < n)%nat).
Proof.
  intros G Ho E. destruct (recv_head_part hs hr k1 m o w u r G Ho E) as (n1 & R1 & L1 & T1 & P1 & Q1). unfold receive. rewrite R1.
  assert (E1 : skipn n1 w ++ u = skipn (o + n1) (frame hs m) ++ r).
  { rewrite <- skipn_skipn'. apply skipn_prefix; auto. rewrite skipn_length, frame_length; auto. lia. }
  destruct (recv_payload_part hs k2 m (o + n1) (skipn n1 w) u r G T1 E1) as (n2 & R2 & L2 & T2 & P2 & Q2). rewrite R2.
  exists (n1 + n2)%nat. rewrite skipn_skipn', Nat.add_assoc. rewrite skipn_length in L2. repeat split; auto; try lia.
  intros Hw. destruct (Nat.lt_ge_cases o header_size) as [Hl|Hl]; [specialize (P1 Hl Hw); lia|]. destruct Q1 as [Q1|Q1]; [lia|]. subst n1.
  rewrite Nat.add_0_r, skipn_O in P2. specialize (P2 Hl Hw). lia.
Qed.

Lemma receive_idle hr k1 k2 : receive hr k1 k2 blank [] = Some (blank, []).
Proof.
  unfold receive, recv_head. cbn [c_offset blank]. change (0 <? header_size)%nat with true. cbn iota. unfold recv.
  change (header_size - 0 =? 0)%nat with false. cbn iota. rewrite firstn_nil, skipn_nil. cbn [length Nat.add c_offset]. change (0 + 0 =? header_size)%nat with false.
  cbn [Nat.add Nat.eqb]. change (0 =? header_size)%nat with false. cbn iota. reflexivity.
Qed.

(* ---------------------------------------------------------------- the invariant *)
Definition waiting (hs : host) (c : complete) : Prop := exists m, good m /\ c_head c = head hs m /\ c_payload c = tm_payload m /\ (c_offset c < total m)%nat.
Definition tail (hs : host) (rest : list tmsg) (o : nat) : list complete :=
  match rest with m :: _ => if (o =? 0)%nat then [] else [part hs m o] | [] => [] end.
Definition begun (rest : list tmsg) (o : nat) : Prop := match rest with m :: _ => (o < total m)%nat | [] => o = 0%nat end.
Record inv (hs : host) (n : connection) (ms rest : list tmsg) (o : nat) : Prop := {
  i_out : Forall (waiting hs) (n_out n);
  i_ms : Forall good ms;
  i_rest : Forall good rest;
  i_begun : begun rest o;
  i_cache : n_cache n = map (full hs) ms ++ tail hs rest o;
  i_bytes : n_wire n ++ flat_map unsent (n_out n) = skipn o (flat_map (frame hs) rest) }.

Lemma inv_start hs : inv hs connected [] [] 0.
Proof. constructor; cbn; auto. Qed.

Lemma outgoing_waiting hs m : good m -> waiting hs (outgoing hs m).
Proof. intros G. exists m. split; [exact G|]. split; [reflexivity|]. split; [reflexivity|]. cbn [c_offset outgoing]. unfold total, header_size. lia. Qed.
Lemma flat_map_length_ge hs rest o : Forall good rest -> begun rest o -> (o <= length (flat_map (frame hs) rest))%nat.
Proof. destruct rest; cbn [begun flat_map]; intros F B; [subst; cbn; lia|]. rewrite app_length, frame_length by (inversion F; auto). lia. Qed.

Lemma step_post hs n ms rest o m : inv hs n ms rest o -> good m ->
  inv hs (mk_con (n_out n ++ [outgoing hs m]) (n_wire n) (n_cache n)) ms (rest ++ [m]) o.
Proof.
  intros I G. pose proof (flat_map_length_ge hs rest o (i_rest _ _ _ _ _ I) (i_begun _ _ _ _ _ I)) as L. destruct I as [A B C D E F]. constructor; cbn [n_out n_wire n_cache]; auto.
  - apply Forall_app. split; auto. constructor; auto. apply outgoing_waiting; auto.
  - apply Forall_app. split; auto.
  - destruct rest; cbn [begun app] in *; auto. subst. unfold total, header_size. lia.
  - rewrite E. destruct rest; [|reflexivity]. cbn [begun] in D. subst. reflexivity.
  - rewrite flat_map_app, app_assoc, F. rewrite flat_map_app, skipn_app. replace (o - length (flat_map (frame hs) rest))%nat with 0%nat by lia. rewrite skipn_O. f_equal.
Qed.

Lemma send_waiting hs k c : waiting hs c -> exists w c', send k c = (w, c') /\ w ++ unsent c' = unsent c /\
  ((is_complete hs c' = true /\ unsent c' = []) \/ (is_complete hs c' = false /\ waiting hs c')) /\ length w = Nat.min k (length (unsent c)).
Proof.
  intros (m & G & Eh & Ep & Eo). pose proof (head_length hs m G) as LH. unfold send. destruct c as [hd p o]. cbn [c_head c_payload c_offset] in *. subst hd p.
  assert (Un : unsent (mk_c (head hs m) (tm_payload m) o) = if (header_size <=? o)%nat then skipn (o - header_size) (tm_payload m) else skipn o (head hs m) ++ tm_payload m).
  { unfold unsent. cbn [c_offset c_head c_payload]. rewrite skipn_app, LH. destruct (header_size <=? o)%nat eqn:El.
    - apply Nat.leb_le in El. rewrite skipn_all2 by lia. reflexivity.
    - apply Nat.leb_gt in El. replace (o - header_size)%nat with 0%nat by lia. reflexivity. }
  rewrite <- Un. set (u := unsent (mk_c (head hs m) (tm_payload m) o)) in *.
  assert (Lu : length u = (total m - o)%nat) by (unfold u, unsent; cbn [c_offset c_head c_payload]; rewrite skipn_length, app_length, LH; unfold total; lia).
  do 2 eexists. split; [reflexivity|]. rewrite firstn_length.
  assert (U' : unsent (mk_c (head hs m) (tm_payload m) (o + Nat.min k (length u))) = skipn k u).
  { unfold unsent. cbn [c_offset c_head c_payload]. rewrite <- skipn_skipn'. change (skipn o (head hs m ++ tm_payload m)) with u.
    destruct (Nat.le_ge_cases k (length u)); [rewrite Nat.min_l by lia; reflexivity|]. rewrite Nat.min_r by lia. rewrite !skipn_all2 by lia. reflexivity. }
  split; [rewrite U'; apply firstn_skipn|]. split; [|reflexivity].
  unfold is_complete. rewrite (head_type hs hs m) by auto. cbn [c_offset c_payload].
  assert (Hz : negb (tm_type m =? 0)%Z = true) by (apply negb_true_iff, Z.eqb_neq; apply G). rewrite Hz. cbn [andb].
  destruct (o + Nat.min k (length u) =? header_size + length (tm_payload m))%nat eqn:Ec.
  - left. split; auto. rewrite U'. apply Nat.eqb_eq in Ec. apply skipn_all2. unfold total in Lu. lia.
  - right. split; auto. apply Nat.eqb_neq in Ec. exists m. split; [exact G|]. split; [reflexivity|]. split; [reflexivity|]. cbn [c_offset]. unfold total in *. lia.
Qed.

Lemma inv_is hs n ms rest o out wire : inv hs n ms rest o -> Forall (waiting hs) out -> wire ++ flat_map unsent out = n_wire n ++ flat_map unsent (n_out n) ->
  inv hs (mk_con out wire (n_cache n)) ms rest o.
Proof. intros I W E. destruct I as [A B C D E' F]. constructor; cbn [n_out n_wire n_cache]; auto. rewrite E. auto. Qed.

Lemma step_write hs hr n ms rest o k : inv hs n ms rest o -> exists n', step hs hr (Write k) n = (n', []) /\ inv hs n' ms rest o.
Proof.
  intros I. cbn [step]. destruct (n_out n) as [|c r] eqn:Eo; [eexists; split; [reflexivity|auto]|].
  pose proof (i_out _ _ _ _ _ I) as W. rewrite Eo in W. inversion W as [|? ? Wc Wr]; subst. destruct (send_waiting hs k c Wc) as (w & c' & Es & Eu & Hc & _). rewrite Es.
  eexists. split; [reflexivity|]. apply (inv_is hs n); auto.
  - destruct Hc as [[Hc _]|[Hc Hw]]; rewrite Hc; auto.
  - rewrite Eo. cbn [flat_map]. rewrite <- Eu, <- !app_assoc. f_equal. f_equal. destruct Hc as [[Hc Hn]|[Hc Hw]]; rewrite Hc; cbn [flat_map]; rewrite ?Hn; auto.
Qed.

Lemma skipn_frames hs m rest o : good m -> (o <= total m)%nat -> skipn o (flat_map (frame hs) (m :: rest)) = skipn o (frame hs m) ++ flat_map (frame hs) rest.
Proof. intros G L. cbn [flat_map]. rewrite skipn_app, frame_length by auto. replace (o - total m)%nat with 0%nat by lia. reflexivity. Qed.

(* what a read of the cache does *)
Lemma receive_cache_inv hs hr n ms rest o k1 k2 : inv hs n ms rest o ->
  exists done rest' o' cache wire, receive_cache hr k1 k2 (n_cache n) (n_wire n) = Some (cache, wire) /\ rest = done ++ rest' /\
    inv hs (mk_con (n_out n) wire cache) (ms ++ done) rest' o' /\ (n_wire n <> [] -> (length wire < length (n_wire n))%nat).
Proof.
  intros I. destruct I as [A B C D E F]. destruct rest as [|m rest].
  - cbn [begun] in D. subst o. cbn [flat_map skipn] in F. apply app_eq_nil in F. destruct F as [Fw Fo]. rewrite Fw, E. cbn [tail]. rewrite app_nil_r.
    exists [], [], 0%nat, (map (full hs) ms), []. split; [|split; [reflexivity|split]].
    + unfold receive_cache. rewrite receive_idle. cbn [c_offset blank Nat.eqb]. rewrite <- map_rev. destruct (rev ms) as [|x q] eqn:Er; cbn [map].
      * apply (f_equal (@rev _)) in Er. rewrite rev_involutive in Er. rewrite Er. reflexivity.
      * assert (Gx : good x) by (apply (proj1 (Forall_forall good ms) B x); apply in_rev; rewrite Er; left; reflexivity). rewrite full_complete by auto. reflexivity.
    + constructor; cbn [n_out n_wire n_cache tail]; rewrite ?app_nil_r; auto. constructor.
    + congruence.
  - cbn [begun] in D. inversion C as [|? ? Gm Gr]; subst. rewrite skipn_frames in F by (auto; lia).
    destruct (receive_part hs hr k1 k2 m o (n_wire n) _ _ Gm D F) as (q & R & Lq & Tq & Pq).
    assert (Fq : skipn q (n_wire n) ++ flat_map unsent (n_out n) = skipn (o + q) (frame hs m) ++ flat_map (frame hs) rest).
    { rewrite <- skipn_skipn'. apply skipn_prefix; auto. rewrite skipn_length, frame_length by auto. lia. }
    assert (RC : exists cache, receive_cache hr k1 k2 (n_cache n) (n_wire n) = Some (cache, skipn q (n_wire n)) /\
                 cache = map (full hs) ms ++ (if (o + q =? 0)%nat then [] else [part hs m (o + q)])).
    { rewrite E. unfold receive_cache. cbn [tail]. destruct (o =? 0)%nat eqn:Eo.
      - apply Nat.eqb_eq in Eo. subst o. rewrite app_nil_r, <- map_rev. change (part hs m 0) with blank in R. cbn [Nat.add] in *.
        destruct (rev ms) as [|x y] eqn:Er; cbn [map].
        + apply (f_equal (@rev _)) in Er. rewrite rev_involutive in Er. cbn [rev] in Er. subst ms. rewrite R. cbn [part c_offset map app]. eexists. split; [reflexivity|]. destruct (q =? 0)%nat; reflexivity.
        + assert (Gx : good x) by (apply (proj1 (Forall_forall good ms) B x); apply in_rev; rewrite Er; left; reflexivity). rewrite full_complete by auto. rewrite R. cbn [part c_offset].
          eexists. split; [reflexivity|]. destruct (q =? 0)%nat; [rewrite app_nil_r|]; reflexivity.
      - apply Nat.eqb_neq in Eo. rewrite rev_app_distr. cbn [rev app]. rewrite part_incomplete by auto. rewrite R. eexists. split; [reflexivity|].
        rewrite rev_involutive. destruct (o + q =? 0)%nat eqn:Ez; [apply Nat.eqb_eq in Ez; lia|reflexivity]. }
    destruct RC as (cache & RC & Ecache). rewrite RC. destruct (Nat.eq_dec (o + q) (total m)) as [Et|Et].
    + exists [m], rest, 0%nat, cache, (skipn q (n_wire n)). split; [reflexivity|]. split; [reflexivity|]. split.
      * constructor; cbn [n_out n_wire n_cache]; auto.
        -- apply Forall_app; auto.
        -- destruct rest; cbn [begun]; auto. unfold total, header_size. lia.
        -- rewrite Ecache, map_app, Et. cbn [map]. destruct (total m =? 0)%nat eqn:Ez; [apply Nat.eqb_eq in Ez; unfold total, header_size in Ez; lia|].
           rewrite part_total by auto. unfold tail. destruct rest; cbn [Nat.eqb]; rewrite app_nil_r; reflexivity.
        -- rewrite Fq, Et, skipn_O. rewrite skipn_all2 by (rewrite frame_length; auto). reflexivity.
      * intros Hw. specialize (Pq Hw). rewrite skipn_length. lia.
    + exists [], (m :: rest), (o + q)%nat, cache, (skipn q (n_wire n)). split; [reflexivity|]. split; [reflexivity|]. rewrite app_nil_r. split.
      * constructor; cbn [n_out n_wire n_cache]; auto.
        -- cbn [begun]. lia.
        -- rewrite skipn_frames by (auto; lia). auto.
      * intros Hw. specialize (Pq Hw). rewrite skipn_length. lia.
Qed.

Lemma take_full hs hr p ms rest o : Forall good ms -> begun rest o -> 
  (exists ms1 m ms2, ms = ms1 ++ m :: ms2 /\ p m = true /\ Forall (fun x => p x = false) ms1 /\
     take hr p (map (full hs) ms ++ tail hs rest o) = Some (m, map (full hs) (ms1 ++ ms2) ++ tail hs rest o)) \/
  (Forall (fun x => p x = false) ms /\ take hr p (map (full hs) ms ++ tail hs rest o) = None).
Proof.
  intros G B. induction ms as [|x ms IH]; cbn [map app take].
  - right. split; auto. unfold tail. destruct rest as [|m rest]; [reflexivity|]. destruct (o =? 0)%nat; [reflexivity|]. cbn [take]. rewrite part_incomplete by exact B. reflexivity.
  - inversion G as [|? ? Gx Gms]; subst. rewrite full_complete, full_msg by auto. cbn [andb]. destruct (p x) eqn:Ep.
    + left. exists [], x, ms. repeat split; auto.
    + destruct (IH Gms) as [(ms1 & m & ms2 & E & Hp & Hf & T)|[Hf T]]; rewrite T.
      * left. exists (x :: ms1), m, ms2. subst. repeat split; auto.
      * right. split; auto.
Qed.

Lemma here_inv hs hr n ms rest o : inv hs n ms rest o -> here hr n = ms.
Proof.
  intros I. unfold here. destruct I as [A B C D E F]. rewrite E. rewrite filter_app, map_app.
  assert (T : filter (is_complete hr) (tail hs rest o) = []).
  { unfold tail. destruct rest as [|m rest]; [reflexivity|]. destruct (o =? 0)%nat; [reflexivity|]. cbn [filter]. rewrite part_incomplete by exact D. reflexivity. }
  rewrite T. cbn [map]. rewrite app_nil_r. clear - B. induction ms as [|m ms IH]; [reflexivity|]. inversion B; subst. cbn [map filter]. rewrite full_complete by auto. cbn [map]. rewrite full_msg, IH by auto. reflexivity.
Qed.

Lemma same_kind t c m m' : of_kind t c m = true -> of_kind t c m' = true -> tm_type m = tm_type m' /\ tm_corr m = tm_corr m'.
Proof.
  unfold of_kind. intros H H'. apply andb_true_iff in H, H'. destruct H as [H1 H2], H' as [H1' H2']. apply Z.eqb_eq in H1, H1'.
  destruct (list_eq_dec Z.eq_dec (tm_corr m) c), (list_eq_dec Z.eq_dec (tm_corr m') c); try discriminate. split; congruence.
Qed.
Lemma filter_none (A : Type) (f : A -> bool) l : Forall (fun x => f x = false) l -> filter f l = [].
Proof. induction 1 as [|x l H _ IH]; [reflexivity|]. cbn. rewrite H. auto. Qed.

Lemma run_inv hs hr l : forall n ms rest o, inv hs n ms rest o -> Forall good (posts l) -> no_push l ->
  exists ms' rest' o' done, inv hs (fst (run hs hr l n)) ms' rest' o' /\ ~ In Raised (snd (run hs hr l n)) /\
    rest ++ posts l = done ++ rest' /\ Permutation (ms ++ done) (gots (snd (run hs hr l n)) ++ ms') /\
    (takes_by_kind l -> forall t c, filter (of_kind t c) (gots (snd (run hs hr l n))) ++ filter (of_kind t c) ms' = filter (of_kind t c) (ms ++ done)).
Proof.
  induction l as [|e l IH]; intros n ms rest o I G NP.
  - cbn [run fst snd posts flat_map gots]. exists ms, rest, o, []. rewrite !app_nil_r. split; [exact I|]. split; [intros []|]. split; [reflexivity|]. split; [apply Permutation_refl|]. reflexivity.
  - cbn [run]. destruct (step hs hr e n) as [n1 o1] eqn:Es. destruct (run hs hr l n1) as [n2 o2] eqn:Er. cbn [fst snd].
    assert (NP' : no_push l) by (intros x Hx; apply (NP x); right; exact Hx).
    assert (KT : takes_by_kind (e :: l) -> takes_by_kind l) by (intros K q Hq; apply K; right; exact Hq).
    destruct e as [m|k|k1 k2|p|m].
    + cbn [posts flat_map app] in G. inversion G as [|? ? Gm Gl]; subst. cbn [step] in Es. inversion Es; subst n1 o1; clear Es.
      destruct (IH _ _ _ _ (step_post _ _ _ _ _ m I Gm) Gl NP') as (ms' & rest' & o' & done & I' & Hr & Ep & P & K). rewrite Er in *. cbn [fst snd] in *.
      exists ms', rest', o', done. cbn [app posts flat_map]. rewrite <- app_assoc in Ep. split; [exact I'|]. split; [exact Hr|]. split; [exact Ep|]. split; [exact P|]. intros Kt. apply K, KT, Kt.
    + destruct (step_write hs hr n ms rest o k I) as (n' & E' & I1). rewrite Es in E'. inversion E'; subst n1 o1; clear E' Es.
      destruct (IH _ _ _ _ I1 G NP') as (ms' & rest' & o' & done & I' & Hr & Ep & P & K). rewrite Er in *. cbn [fst snd app] in *.
      exists ms', rest', o', done. split; [exact I'|]. split; [exact Hr|]. split; [exact Ep|]. split; [exact P|]. intros Kt. apply K, KT, Kt.
    + cbn [step] in Es. destruct (receive_cache_inv hs hr n ms rest o k1 k2 I) as (d & rest1 & o1' & cache & wire & Rc & Ed & I1 & _). rewrite Rc in Es. inversion Es; subst n1 o1; clear Es.
      destruct (IH _ _ _ _ I1 G NP') as (ms' & rest' & o' & done & I' & Hr & Ep & P & K). rewrite Er in *. cbn [fst snd app] in *.
      exists ms', rest', o', (d ++ done). split; [exact I'|]. split; [exact Hr|]. cbn [posts flat_map app]. split; [rewrite Ed, <- !app_assoc; f_equal; exact Ep|].
      rewrite <- app_assoc in P. split; [exact P|]. intros Kt t c. rewrite app_assoc. apply K, KT, Kt.
    + cbn [step] in Es. pose proof (i_cache _ _ _ _ _ I) as Ec. pose proof (i_ms _ _ _ _ _ I) as Gms. pose proof (i_begun _ _ _ _ _ I) as Bg. rewrite Ec in Es.
      destruct (take_full hs hr p ms rest o Gms Bg) as [(ms1 & m & ms2 & E & Hp & Hf & T)|[Hf T]]; rewrite T in Es; inversion Es; subst n1 o1; clear Es.
      * assert (I1 : inv hs (mk_con (n_out n) (n_wire n) (map (full hs) (ms1 ++ ms2) ++ tail hs rest o)) (ms1 ++ ms2) rest o).
        { destruct I as [A B C D E' F]. constructor; cbn [n_out n_wire n_cache]; auto. subst ms. apply Forall_app in B. destruct B as [B1 B2]. inversion B2; subst. apply Forall_app; auto. }
        destruct (IH _ _ _ _ I1 G NP') as (ms' & rest' & o' & done & I' & Hr & Ep & P & K). rewrite Er in *. cbn [fst snd app] in *.
        exists ms', rest', o', done. split; [exact I'|]. split; [intros [X|X]; [discriminate|exact (Hr X)]|]. split; [exact Ep|]. split.
        -- cbn [gots flat_map app]. subst ms. change (flat_map _ o2) with (gots o2). rewrite <- !app_assoc. cbn [app]. apply Permutation_sym, Permutation_cons_app, Permutation_sym. rewrite app_assoc. exact P.
        -- intros Kt t c. specialize (K (KT Kt) t c). cbn [gots flat_map app]. change (flat_map _ o2) with (gots o2). subst ms. rewrite <- app_assoc. cbn [app].
           rewrite <- app_assoc in K. rewrite !filter_app in K. rewrite filter_app. cbn [filter]. rewrite filter_app. destruct (of_kind t c m) eqn:Ek; [|exact K].
           assert (N1 : filter (of_kind t c) ms1 = []).
           { apply filter_none. apply Forall_forall. intros x Hx. destruct (of_kind t c x) eqn:Ex; auto. exfalso.
             destruct (same_kind t c m x Ek Ex) as [Ht Hc]. rewrite (Kt p (or_introl eq_refl) m x Ht Hc) in Hp. rewrite (proj1 (Forall_forall _ _) Hf x Hx) in Hp. discriminate. }
           rewrite N1 in *. cbn [app] in *. f_equal. exact K.
      * destruct (IH _ _ _ _ I G NP') as (ms' & rest' & o' & done & I' & Hr & Ep & P & K). rewrite Er in *. cbn [fst snd app] in *.
        exists ms', rest', o', done. split; [exact I'|]. split; [exact Hr|]. split; [exact Ep|]. split; [exact P|]. intros Kt. apply K, KT, Kt.
    + exfalso. apply (NP m). left. reflexivity.
Qed.

Section Conclusions.
  Variables (hs hr : host) (l : list event).
  Hypothesis G : Forall good (posts l).
  Hypothesis NP : no_push l.
  Let n := fst (run hs hr l connected).
  Let got := gots (snd (run hs hr l connected)).
  Lemma reached : exists rest o done, inv hs n (here hr n) rest o /\ ~ In Raised (snd (run hs hr l connected)) /\ posts l = done ++ rest /\ Permutation done (got ++ here hr n) /\
    (takes_by_kind l -> forall t c, filter (of_kind t c) got ++ filter (of_kind t c) (here hr n) = filter (of_kind t c) done).
  Proof.
    destruct (run_inv hs hr l connected [] [] 0 (inv_start hs) G NP) as (ms & rest & o & done & I & R & E & P & K). cbn [app] in *.
    assert (Hm : here hr n = ms) by (eapply here_inv; exact I). exists rest, o, done. rewrite Hm. split; [exact I|]. split; [exact R|]. split; [exact E|]. split; [exact P|exact K].
  Qed.
  Lemma never_raises : ~ In Raised (snd (run hs hr l connected)).
  Proof. destruct reached as (rest & o & done & I & R & _). exact R. Qed.
  Lemma arrived_prefix : exists rest done, posts l = done ++ rest /\ Permutation done (got ++ here hr n) /\
    (takes_by_kind l -> forall t c, filter (of_kind t c) got ++ filter (of_kind t c) (here hr n) = filter (of_kind t c) done) /\
    (n_out n = [] -> n_wire n = [] -> rest = []).
  Proof.
    destruct reached as (rest & o & done & I & R & E & P & K). exists rest, done. split; [exact E|]. split; [exact P|]. split; [exact K|].
    intros Ho Hw. pose proof (i_bytes _ _ _ _ _ I) as F. pose proof (i_begun _ _ _ _ _ I) as D. pose proof (i_rest _ _ _ _ _ I) as C. rewrite Ho, Hw in F. cbn [app flat_map] in F.
    destruct rest as [|m rest]; [reflexivity|]. exfalso. cbn [begun] in D. apply (f_equal (@length _)) in F. inversion C; subst. rewrite skipn_length in F. cbn [flat_map length] in F.
    rewrite app_length, frame_length in F by auto. lia.
  Qed.
  Lemma write_progress k : n_out n <> [] -> (bytes_out (fst (step hs hr (Write (S k)) n)) < bytes_out n)%nat.
  Proof.
    destruct reached as (rest & o & done & I & _). intros Ho. unfold bytes_out. cbn [step]. pose proof (i_out _ _ _ _ _ I) as W. destruct (n_out n) as [|c r]; [congruence|].
    inversion W as [|? ? Wc Wr]; subst. destruct (send_waiting hs (S k) c Wc) as (w & c' & Es & Eu & Hc & Lw). rewrite Es. cbn [fst n_out]. cbn [flat_map]. rewrite app_length.
    destruct Wc as (m & Gm & Eh & Ep & Eo).
    assert (Lu : (0 < length (unsent c))%nat) by (unfold unsent; rewrite skipn_length, app_length, Eh, Ep, head_length by auto; unfold total in Eo; lia).
    apply (f_equal (@length _)) in Eu. rewrite app_length in Eu. destruct Hc as [[Hc Hn]|[Hc Hw]]; rewrite Hc; cbn [flat_map]; rewrite ?app_length; lia.
  Qed.
  Lemma read_progress k1 k2 : n_wire n <> [] -> (length (n_wire (fst (step hs hr (Read k1 k2) n))) < length (n_wire n))%nat.
  Proof.
    destruct reached as (rest & o & done & I & _). intros Hw. cbn [step].
    destruct (receive_cache_inv hs hr n _ rest o k1 k2 I) as (d & rest1 & o1' & cache & wire & Rc & Ed & I1 & Hl). rewrite Rc. cbn [fst n_wire]. auto.
  Qed.
End Conclusions.

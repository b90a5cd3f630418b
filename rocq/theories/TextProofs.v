From Coq Require Import ZArith List Bool String Ascii Lia.
From Verif Require Import Bytes BoModel BoSpec BoProofs TextModel.
Import ListNotations.
Local Open Scope Z_scope.

(* ---------------------------------------------------------------- hex *)
(* a property of all bytes by computation *)
Lemma all_bytes (P : Z -> bool) : forallb P (map Z.of_nat (seq 0 256)) = true -> forall b, is_byte b -> P b = true.
Proof.
  intros H b Hb. rewrite forallb_forall in H. apply H. unfold is_byte in Hb. apply in_map_iff. exists (Z.to_nat b). split; [lia|]. apply in_seq. lia.
Qed.
Definition eqb_list (a b : list Z) : bool := if list_eq_dec Z.eq_dec a b then true else false.
Lemma eqb_list_eq a b : eqb_list a b = true -> a = b.
Proof. unfold eqb_list. destruct (list_eq_dec Z.eq_dec a b); [auto|discriminate]. Qed.
Lemma hex1 b : is_byte b -> exists x y, hex_encode1 b = [x; y] /\ Z.shiftl (Z.land 15 (hex_value x)) 4 + Z.land 15 (hex_value y) = b /\ is_hex x = true /\ is_hex y = true.
Proof.
  intros Hb. unfold hex_encode1. do 2 eexists. split; [reflexivity|]. cbv zeta.
  pose proof (all_bytes (fun b => (Z.shiftl (Z.land 15 (hex_value (hex_char (Z.shiftr (Z.land 240 (to_signed 1 b)) 4)))) 4 + Z.land 15 (hex_value (hex_char (Z.land 15 (to_signed 1 b)))) =? b) &&
    is_hex (hex_char (Z.shiftr (Z.land 240 (to_signed 1 b)) 4)) && is_hex (hex_char (Z.land 15 (to_signed 1 b)))) ltac:(vm_compute; reflexivity) b Hb) as H.
  cbv beta in H. apply andb_prop in H. destruct H as [H H3]. apply andb_prop in H. destruct H as [H1 H2]. apply Z.eqb_eq in H1. auto.
Qed.
Lemma hex_round_trip d : Forall is_byte d -> hex_decode (hex_encode d) = Some d.
Proof.
  induction 1 as [|b r Hb Hr IH]; [reflexivity|]. unfold hex_encode. cbn [flat_map]. fold (hex_encode r). destruct (hex1 b Hb) as (x & y & -> & E & _).
  cbn [app hex_decode]. rewrite IH, E. reflexivity.
Qed.
Lemma hex_length d : List.length (hex_encode d) = (2 * List.length d)%nat.
Proof. induction d as [|b r IH]; [reflexivity|]. unfold hex_encode in *. cbn [flat_map]. rewrite app_length, IH. cbn. lia. Qed.
Lemma hex_is_hex d : Forall is_byte d -> forallb is_hex (hex_encode d) = true.
Proof.
  induction 1 as [|b r Hb Hr IH]; [reflexivity|]. unfold hex_encode in *. cbn [flat_map]. destruct (hex1 b Hb) as (x & y & -> & _ & H1 & H2). cbn [app forallb]. rewrite H1, H2, IH. reflexivity.
Qed.
(* decoding hexadecimal text and encoding it again gives the text: the encoding is a bijection *)
Lemma hex_back1 x y : is_hex x = true -> is_hex y = true -> hex_encode1 (Z.shiftl (Z.land 15 (hex_value x)) 4 + Z.land 15 (hex_value y)) = [x; y] /\ is_byte (Z.shiftl (Z.land 15 (hex_value x)) 4 + Z.land 15 (hex_value y)).
Proof.
  intros Hx Hy.
  assert (B : forall c, is_hex c = true -> is_byte c).
  { unfold is_hex, is_byte. intros c H. apply orb_prop in H. destruct H as [H|H]; apply andb_prop in H; destruct H as [H1 H2]; apply Z.leb_le in H1; apply Z.leb_le in H2; lia. }
  pose proof (all_bytes (fun x => forallb (fun y => implb (is_hex x && is_hex y) (eqb_list (hex_encode1 (Z.shiftl (Z.land 15 (hex_value x)) 4 + Z.land 15 (hex_value y))) [x; y] &&
     (0 <=? Z.shiftl (Z.land 15 (hex_value x)) 4 + Z.land 15 (hex_value y)) && (Z.shiftl (Z.land 15 (hex_value x)) 4 + Z.land 15 (hex_value y) <? 256))) (map Z.of_nat (seq 0 256))) ltac:(vm_compute; reflexivity) x (B x Hx)) as H.
  cbv beta in H. rewrite forallb_forall in H. specialize (H y). rewrite Hx, Hy in H. cbn [andb implb] in H.
  assert (I : In y (map Z.of_nat (seq 0 256))). { apply in_map_iff. pose proof (B y Hy) as Hb. unfold is_byte in Hb. exists (Z.to_nat y). split; [lia|]. apply in_seq. lia. }
  specialize (H I). apply andb_prop in H. destruct H as [H H3]. apply andb_prop in H. destruct H as [H1 H2]. apply eqb_list_eq in H1. apply Z.leb_le in H2. apply Z.ltb_lt in H3. unfold is_byte. split; [exact H1|lia].
Qed.
Lemma hex_back s : forall d, forallb is_hex s = true -> hex_decode s = Some d -> hex_encode d = s /\ Forall is_byte d.
Proof.
  assert (G : forall n s d, (List.length s <= n)%nat -> forallb is_hex s = true -> hex_decode s = Some d -> hex_encode d = s /\ Forall is_byte d).
  { induction n as [|n IH]; intros [|x [|y r]] d Hn Hs H; cbn [hex_decode] in H; cbn [List.length] in Hn; try discriminate; try lia; try (injection H as <-; split; [reflexivity|constructor]).
    cbn [forallb] in Hs. apply andb_prop in Hs. destruct Hs as [Hx Hs]. apply andb_prop in Hs. destruct Hs as [Hy Hs]. destruct (hex_decode r) as [d'|] eqn:E; [|discriminate]. apply (f_equal (fun o => match o with Some v => v | None => [] end)) in H. cbv beta iota in H. subst d.
    destruct (IH r d' ltac:(lia) Hs E) as [E1 E2]. destruct (hex_back1 x y Hx Hy) as [E3 E4]. split; [|constructor; assumption]. unfold hex_encode in *. cbn [flat_map]. rewrite E3, E1. reflexivity. }
  intros d. apply (G (List.length s)). lia.
Qed.

(* ---------------------------------------------------------------- base64 *)
Lemma all_below (n : nat) (P : Z -> bool) : forallb P (map Z.of_nat (seq 0 n)) = true -> forall b, 0 <= b < Z.of_nat n -> P b = true.
Proof.
  intros H b Hb. rewrite forallb_forall in H. apply H. apply in_map_iff. exists (Z.to_nat b). split; [lia|]. apply in_seq. lia.
Qed.
Lemma b64_char_value v : 0 <= v < 64 -> b64_value (b64_char v) = Some v /\ (b64_char v =? pad) = false /\ (b64_char v =? 0) = false.
Proof.
  intros Hv. pose proof (all_below 64 (fun v => match b64_value (b64_char v) with Some x => x =? v | None => false end && negb (b64_char v =? pad) && negb (b64_char v =? 0)) ltac:(vm_compute; reflexivity) v ltac:(lia)) as H.
  cbv beta in H. apply andb_prop in H. destruct H as [H H3]. apply andb_prop in H. destruct H as [H1 H2]. destruct (b64_value (b64_char v)) as [x|]; [|discriminate]. apply Z.eqb_eq in H1. subst x.
  split; [reflexivity|]. split; [destruct (_ =? pad); [discriminate|reflexivity]|destruct (_ =? 0); [discriminate|reflexivity]].
Qed.
Lemma list3_ind {A} (P : list A -> Prop) : P [] -> (forall a, P [a]) -> (forall a b, P [a; b]) -> (forall a b c r, P r -> P (a :: b :: c :: r)) -> forall l, P l.
Proof.
  intros H0 H1 H2 H3. assert (G : forall n l, (List.length l <= n)%nat -> P l).
  { induction n as [|n IH]; intros [|a [|b [|c r]]] Hl; auto; cbn in Hl; try lia. apply H3, IH. lia. }
  intros l. apply (G (List.length l)). lia.
Qed.
Lemma parts a b c : is_byte a -> is_byte b -> is_byte c ->
  (0 <= a / 4 < 64 /\ 0 <= a mod 4 * 16 < 64 /\ 0 <= a mod 4 * 16 + b / 16 < 64 /\ 0 <= b mod 16 * 4 < 64 /\ 0 <= b mod 16 * 4 + c / 64 < 64 /\ 0 <= c mod 64 < 64) /\
  a / 4 * 4 + (a mod 4 * 16) / 16 = a /\ a / 4 * 4 + (a mod 4 * 16 + b / 16) / 16 = a /\
  (a mod 4 * 16 + b / 16) mod 16 * 16 + (b mod 16 * 4) / 4 = b /\ (a mod 4 * 16 + b / 16) mod 16 * 16 + (b mod 16 * 4 + c / 64) / 4 = b /\
  (b mod 16 * 4 + c / 64) mod 4 * 64 + c mod 64 = c.
Proof.
  unfold is_byte. intros Ha Hb Hc. Z.to_euclidean_division_equations. lia.
Qed.
Lemma rfc_round_trip d e : Forall is_byte d -> e = [] \/ (exists r, e = 0 :: r) -> rfc_decode (rfc_encode d ++ e) = Some d.
Proof.
  intros H He. assert (L : (match e with [] => true | x :: _ => x =? 0 end) = true) by (destruct He as [-> |(r & ->)]; reflexivity).
  revert H. induction d as [|a|a b|a b c r IH] using list3_ind; intros H.
  - cbn [rfc_encode app]. destruct He as [-> |(r & ->)]; reflexivity.
  - pose proof (Forall_inv H) as Ha. destruct (parts a 0 0) as ((P1 & P2 & _) & Q & _); [exact Ha|unfold is_byte; lia..|].
    cbn [rfc_encode app rfc_decode]. destruct (b64_char_value _ P1) as (V1 & _ & Z1). destruct (b64_char_value _ P2) as (V2 & _ & _). rewrite Z1, V1, V2. rewrite Z.eqb_refl. cbv zeta. rewrite L. cbn [andb]. rewrite Q. reflexivity.
  - pose proof (Forall_inv H) as Ha. pose proof (Forall_inv (Forall_inv_tail H)) as Hb. destruct (parts a b 0) as ((P1 & _ & P3 & P4 & _) & _ & Q1 & Q2 & _); [exact Ha|exact Hb|unfold is_byte; lia|].
    cbn [rfc_encode app rfc_decode]. destruct (b64_char_value _ P1) as (V1 & _ & Z1). destruct (b64_char_value _ P3) as (V2 & _ & _). destruct (b64_char_value _ P4) as (V3 & N3 & _). rewrite Z1, V1, V2, N3, V3. rewrite Z.eqb_refl. cbv zeta. rewrite L, Q1, Q2. reflexivity.
  - pose proof (Forall_inv H) as Ha. pose proof (Forall_inv (Forall_inv_tail H)) as Hb. pose proof (Forall_inv (Forall_inv_tail (Forall_inv_tail H))) as Hc. pose proof (Forall_inv_tail (Forall_inv_tail (Forall_inv_tail H))) as Hr.
    destruct (parts a b c) as ((P1 & _ & P3 & _ & P5 & P6) & _ & Q1 & _ & Q2 & Q3); [exact Ha|exact Hb|exact Hc|].
    cbn [rfc_encode app rfc_decode]. destruct (b64_char_value _ P1) as (V1 & _ & Z1). destruct (b64_char_value _ P3) as (V2 & _ & _). destruct (b64_char_value _ P5) as (V3 & N3 & _). destruct (b64_char_value _ P6) as (V4 & N4 & _).
    rewrite Z1, V1, V2, N3, V3, N4, V4, (IH Hr). rewrite Q1, Q2, Q3. reflexivity.
Qed.
Lemma rfc_length d : Z.of_nat (List.length (rfc_encode d)) = capacity (Z.of_nat (List.length d)).
Proof.
  induction d as [|a|a b|a b c r IH] using list3_ind; try reflexivity.
  cbn [rfc_encode List.length]. unfold capacity in *. rewrite !Nat2Z.inj_succ, IH. set (n := Z.of_nat (List.length r)). replace (Z.succ (Z.succ (Z.succ n)) + 2) with (n + 2 + 1 * 3) by lia. rewrite Z.div_add by lia. lia.
Qed.
Lemma base64_encode_ok d : base64_encode d = Coded (rfc_encode d).
Proof. unfold base64_encode, into. rewrite rfc_length, Z.ltb_irrefl. reflexivity. Qed.
Lemma capacity_decoded n : 0 <= n -> n <= capacity n / 4 * 3.
Proof. intros H. unfold capacity. rewrite Z.div_mul by lia. Z.to_euclidean_division_equations. lia. Qed.
Lemma base64_round_trip d : Forall is_byte d -> exists s, base64_encode d = Coded s /\ base64_decode s = Coded d.
Proof.
  intros H. exists (rfc_encode d). split; [apply base64_encode_ok|]. unfold base64_decode. pose proof (rfc_round_trip d [] H (or_introl eq_refl)) as R. rewrite app_nil_r in R. rewrite R.
  unfold into. rewrite rfc_length. pose proof (capacity_decoded (Z.of_nat (List.length d)) ltac:(lia)). destruct (Z.ltb_spec (capacity (Z.of_nat (List.length d)) / 4 * 3) (Z.of_nat (List.length d))); [lia|reflexivity].
Qed.

(* ---------------------------------------------------------------- http *)
Lemma wire_round_trip t d : Forall is_byte d -> exists w, to_wire t d = Coded w /\ from_wire t w = Coded (if String.eqb t t_null then [] else d).
Proof.
  intros H. unfold to_wire, from_wire. destruct (String.eqb t t_json) eqn:E1; [apply String.eqb_eq in E1; subst t; exists d; split; reflexivity|].
  destruct (String.eqb t t_xml) eqn:E2; [apply String.eqb_eq in E2; subst t; exists d; split; reflexivity|]. cbn [orb]. destruct (String.eqb t t_null) eqn:E3; [exists []; split; reflexivity|].
  exists (rfc_encode d). rewrite base64_encode_ok. split; [reflexivity|]. rewrite (rfc_round_trip d [0] H) by (right; eauto). unfold into. rewrite rfc_length.
  pose proof (capacity_decoded (Z.of_nat (List.length d)) ltac:(lia)) as C. destruct (Z.ltb_spec (capacity (Z.of_nat (List.length d)) + 1) (Z.of_nat (List.length d))); [|reflexivity].
  exfalso. unfold capacity in *. Z.to_euclidean_division_equations. lia.
Qed.
Lemma prefix_app p : forall s, String.prefix p (p ++ s)%string = true.
Proof. induction p as [|c p IH]; intros s; cbn [append String.prefix]; [destruct s; reflexivity|]. destruct (ascii_dec c c); [apply IH|congruence]. Qed.
Lemma substring_whole s : substring 0 (String.length s) s = s.
Proof. induction s as [|c s IH]; cbn [String.length substring]; [reflexivity|]. rewrite IH. reflexivity. Qed.
Lemma length_append p s : String.length (p ++ s)%string = (String.length p + String.length s)%nat.
Proof. induction p as [|c p IH]; cbn; [reflexivity|]. rewrite IH. reflexivity. Qed.
Lemma substring_append p s : substring (String.length p) (String.length s) (p ++ s)%string = s.
Proof. induction p as [|c p IH]; cbn [String.length append substring]; [apply substring_whole|]. exact IH. Qed.
Lemma find_in_prefix m s : forallb (fun x => negb (String.prefix generic_prefix (fst x))) m = true -> find_in m (generic_prefix ++ s)%string = None.
Proof.
  induction m as [|[a b] m IH]; intros H; [reflexivity|]. cbn [forallb fst] in H. apply andb_prop in H. destruct H as [H1 H2]. cbn [find_in]. destruct (String.eqb a _) eqn:E; [|apply IH, H2].
  apply String.eqb_eq in E. subst a. rewrite prefix_app in H1. discriminate.
Qed.
Lemma content_round_trip t : type_of (content_of t) = Some t.
Proof.
  unfold content_of. destruct (find_in from_mapping t) as [p|] eqn:E.
  - unfold from_mapping in E. cbn [find_in] in E.
    repeat match type of E with (if String.eqb ?a t then _ else _) = _ => destruct (String.eqb_spec a t) as [<- |]; [injection E as <-; reflexivity|] end. discriminate.
  - unfold type_of. rewrite find_in_prefix by reflexivity. rewrite prefix_app. rewrite length_append. replace (_ + _ - _)%nat with (String.length t) by lia. rewrite substring_append. reflexivity.
Qed.

(* ---------------------------------------------------------------- ids *)
Lemma uuid_round_trip u : Forall is_byte u -> List.length u = 16%nat -> u <> nil_uuid -> uuid_parse (uuid_print u) = Some u.
Proof.
  intros H L N. unfold uuid_print. destruct (forallb (Z.eqb 0) u) eqn:E.
  - exfalso. apply N. clear H N. revert L E. unfold nil_uuid. generalize 16%nat. induction u as [|b u IH]; intros [|n] L E; cbn [List.length forallb repeat] in *; try discriminate; [reflexivity|]. apply andb_prop in E. destruct E as [E1 E2]. apply Z.eqb_eq in E1. subst b. f_equal. apply IH; [congruence|exact E2].
  - unfold uuid_parse. rewrite hex_length, L, (hex_is_hex u H). cbn [Nat.mul Nat.add Nat.eqb andb]. apply hex_round_trip, H.
Qed.
Lemma uuid_nil_text : uuid_parse (uuid_print nil_uuid) = None. Proof. vm_compute. reflexivity. Qed.
Lemma gtrid_round_trip g : Forall is_byte g -> g <> [] -> (List.length g <= 32)%nat -> gtrid_parse (gtrid_print g) = Parsed g.
Proof.
  intros H N L. unfold gtrid_parse, gtrid_print. rewrite hex_length, (hex_is_hex g H), (hex_round_trip g H). destruct g as [|b g]; [congruence|]. cbn [List.length] in *. destruct (Nat.eqb_spec (2 * S (List.length g)) 0); [lia|].
  cbn [orb negb]. replace (Nat.odd (2 * S (List.length g))) with false. 2: { symmetry. rewrite Nat.odd_mul. reflexivity. }
  destruct (Nat.ltb_spec 64 (2 * S (List.length g))); [lia|reflexivity].
Qed.
Lemma gtrid_dies g : Forall is_byte g -> (32 < List.length g <= 64)%nat -> gtrid_parse (gtrid_print g) = Died.
Proof.
  intros H L. unfold gtrid_parse, gtrid_print. rewrite hex_length, (hex_is_hex g H). destruct (Nat.eqb_spec (2 * List.length g) 0); [lia|]. cbn [orb negb]. replace (Nat.odd (2 * List.length g)) with false. 2: { symmetry. rewrite Nat.odd_mul. reflexivity. }
  destruct (Nat.ltb_spec 64 (2 * List.length g)); [reflexivity|lia].
Qed.
Lemma gtrid_parse_text s g : gtrid_parse s = Parsed g -> gtrid_print g = s /\ Forall is_byte g.
Proof.
  unfold gtrid_parse, gtrid_print. destruct (_ || _) eqn:E; [discriminate|]. destruct (Nat.odd _); [discriminate|]. destruct (_ <? _)%nat; [discriminate|]. destruct (hex_decode s) as [d|] eqn:E2; [|discriminate]. intros [= <-].
  apply hex_back; [|exact E2]. apply orb_false_elim in E. destruct E as [_ E]. destruct (forallb is_hex s); [reflexivity|discriminate].
Qed.

(* ---------------------------------------------------------------- XID *)
Lemma memcmp_eq n : forall a b, (n <= List.length a)%nat -> (n <= List.length b)%nat -> (memcmp n a b = Eq <-> firstn n a = firstn n b).
Proof.
  induction n as [|n IH]; intros a b Ha Hb; [split; reflexivity|]. destruct a as [|x a]; cbn [List.length] in *; [lia|]. destruct b as [|y b]; cbn [List.length] in *; [lia|]. cbn [memcmp firstn].
  destruct (Z.ltb_spec x y); [split; [discriminate|intros [= -> _]; lia]|]. destruct (Z.ltb_spec y x); [split; [discriminate|intros [= -> _]; lia]|]. assert (x = y) by lia. subst y.
  rewrite IH by lia. split; [intros ->; reflexivity|]. intros [= E]. exact E.
Qed.
Lemma memcmp_flip n : forall a b, memcmp n b a = CompOpp (memcmp n a b).
Proof.
  induction n as [|n IH]; intros a b; [reflexivity|]. destruct a as [|x a], b as [|y b]; try reflexivity. cbn [memcmp]. destruct (Z.ltb_spec x y), (Z.ltb_spec y x); try reflexivity; try lia. apply IH.
Qed.
Lemma memcmp_trans n : forall a b c, memcmp n a b = Lt -> memcmp n b c = Lt -> memcmp n a c = Lt.
Proof.
  induction n as [|n IH]; intros a b c H1 H2; [discriminate|]. destruct a as [|x a], b as [|y b], c as [|z c]; cbn [memcmp] in *; try discriminate.
  destruct (Z.ltb_spec x y), (Z.ltb_spec y x), (Z.ltb_spec y z), (Z.ltb_spec z y), (Z.ltb_spec x z), (Z.ltb_spec z x); try discriminate; try lia; try reflexivity. eapply IH; eassumption.
Qed.
Lemma memcmp_app k : forall m p a q b, List.length p = k -> List.length q = k ->
  memcmp (k + m) (p ++ a) (q ++ b) = match memcmp k p q with Eq => memcmp m a b | o => o end.
Proof.
  induction k as [|k IH]; intros m p a q b Hp Hq; destruct p as [|x p], q as [|y q]; try discriminate; [reflexivity|]. cbn [Nat.add app memcmp]. destruct (x <? y); [reflexivity|]. destruct (y <? x); [reflexivity|]. apply IH; cbn in *; congruence.
Qed.
Lemma memcmp_refl n : forall a, memcmp n a a = Eq.
Proof. induction n as [|n IH]; intros [|x a]; try reflexivity. cbn [memcmp]. rewrite Z.ltb_irrefl. apply IH. Qed.

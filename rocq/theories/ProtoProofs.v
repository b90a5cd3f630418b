From Coq Require Import String ZArith List Bool Lia Sorted.
From Verif Require Import Bytes BoModel BoSpec BoProofs ArcModel ArcSpec ArcProofs ProtoModel ProtoDoc ProtoSpec.
Import ListNotations.
Local Open Scope Z_scope.

(* ---------------------------------------------------------------- C56 *)
Lemma write_num_big_endian h s x : value_of s x -> big_endian (width s) x (write_num (Network h) s x).
Proof. intros V. apply encode_big_endian. exact V. Qed.
Lemma size_big_endian h n : sizes n -> big_endian 8 (Z.of_nat n) (write_size (Network h) (Z.of_nat n)).
Proof. intros V. apply (write_num_big_endian h T_size). cbn. unfold sizes in V. change (2 ^ 63) with 9223372036854775808 in *. lia. Qed.
Lemma write_wire h t : forall v, typed t v -> wire t v (write (Network h) t v).
Proof.
  induction t as [s| |n|u|t IH|t IH|multi lt t IH| |a IHa b IHb|n t IH|]; intros v T.
  - destruct v; try contradiction. cbn [typed write] in *. constructor. apply write_num_big_endian. exact T.
  - destruct v; try contradiction. destruct T as [L B]. cbn [write]. constructor. apply size_big_endian. exact L.
  - destruct v; try contradiction. cbn [write]. constructor.
  - destruct v; try contradiction. destruct T as [U B]. cbn [write]. constructor. apply (write_num_big_endian h T_long). exact B.
  - destruct v; try contradiction; cbn [write typed] in *.
    + constructor. apply (write_num_big_endian h T_bool). left. reflexivity.
    + constructor; [apply (write_num_big_endian h T_bool); right; reflexivity|]. apply IH. exact T.
  - destruct v as [| | | |l| | |]; try contradiction. destruct T as [L F]. cbn [write]. constructor; [apply size_big_endian; exact L|].
    clear L. induction F as [|v l H F IHF]; cbn [flat_map]; constructor; auto.
  - destruct v as [| | | |l| | |]; try contradiction. destruct T as [L [F _]]. cbn [write]. constructor; [apply size_big_endian; exact L|].
    clear L. induction F as [|v l H F IHF]; cbn [flat_map]; constructor; auto.
  - destruct v; try contradiction. constructor.
  - destruct v; try contradiction. destruct T as [A B]. cbn [write]. constructor; auto.
  - assert (E : write (Network h) (T_tuple n t) v = write_size (Network h) (Z.of_nat n) ++ write (Network h) t v) by (destruct v; reflexivity).
    assert (T' : sizes n /\ typed t v) by (destruct v; exact T). destruct T' as [N T']. rewrite E. constructor; [apply size_big_endian; exact N|auto].
  - destruct v as [| | | | | | |f g b d]; try contradiction. destruct T as [V T]. cbn [write]. destruct (Z.eqb_spec f (-1)) as [E|E].
    + destruct T as [-> [-> ->]]. subst f. rewrite app_nil_r. constructor. apply (write_num_big_endian h T_long). exact V.
    + destruct T as [G [B [S' [L F]]]]. constructor; auto; apply (write_num_big_endian h T_long); cbn [value_of] in *; change (2 ^ 63) with 9223372036854775808 in *; lia.
Qed.
Scheme wire_ind2 := Induction for wire Sort Prop with wires_ind2 := Induction for wires Sort Prop.
Lemma be_bool (b : Z) l l' : big_endian 1 b l -> big_endian 1 b l' -> l = l'.
Proof. intros A B. rewrite (big_endian_unique _ _ _ A), (big_endian_unique _ _ _ B). reflexivity. Qed.
Lemma wire_unique t v l : wire t v l -> forall l', wire t v l' -> l = l'.
Proof.
  intros W. induction W using wire_ind2 with (P0 := fun t vs l _ => forall l', wires t vs l' -> l = l');
    intros l' W'; inversion W'; subst; auto; try congruence;
    repeat match goal with H : big_endian _ _ _ |- _ => apply big_endian_unique in H end; subst; auto;
    repeat match goal with IH : forall l', wire ?t ?v l' -> ?l = l', H : wire ?t ?v ?m |- _ => apply IH in H; subst end;
    repeat match goal with IH : forall l', wires ?t ?v l' -> ?l = l', H : wires ?t ?v ?m |- _ => apply IH in H; subst end; auto.
Qed.
Lemma wire_iff h t v l : typed t v -> (wire t v l <-> l = write (Network h) t v).
Proof.
  intros T. split; [intros W; symmetry; apply (wire_unique t v); [apply write_wire; exact T|exact W]|intros ->; apply write_wire; exact T].
Qed.

(* the examples of the documentation *)
Definition value_ofb (s : scalar) (x : Z) : bool :=
  match s with
  | T_bool => (x =? 0) || (x =? 1)
  | T_uchar => (0 <=? x) && (x <? 256)
  | T_char => (-128 <=? x) && (x <? 128)
  | T_short => (- 2 ^ 15 <=? x) && (x <? 2 ^ 15)
  | T_int => (- 2 ^ 31 <=? x) && (x <? 2 ^ 31)
  | T_float => (0 <=? x) && (x <? 2 ^ 32)
  | T_double | T_usize => (0 <=? x) && (x <? 2 ^ 64)
  | T_long | T_longlong | T_size => (- 2 ^ 63 <=? x) && (x <? 2 ^ 63)
  end.
Lemma value_ofb_ok s x : value_ofb s x = true -> value_of s x.
Proof. destruct s; cbn [value_ofb value_of]; rewrite ?orb_true_iff, ?andb_true_iff, ?Z.eqb_eq, ?Z.leb_le, ?Z.ltb_lt; tauto. Qed.
Definition byteb (x : Z) : bool := (0 <=? x) && (x <? 256).
Fixpoint typedb (t : ty) (v : val) : bool :=
  match t, v with
  | T_num s, V_num x => value_ofb s x
  | T_bytes, V_bytes l => (Z.of_nat (length l) <? 2 ^ 63) && forallb byteb l
  | T_fixed n, V_bytes l => (length l =? n)%nat && forallb byteb l
  | T_duration u, V_num x => (0 <? u) && (- 2 ^ 63 <=? x * u) && (x * u <? 2 ^ 63)
  | T_optional _, V_none => true
  | T_optional t, V_some v => typedb t v
  | T_sequence t, V_list l => (Z.of_nat (length l) <? 2 ^ 63) && forallb (typedb t) l
  | T_unit, V_unit => true
  | T_pair a b, V_pair v w => typedb a v && typedb b w
  | T_xid, V_xid f g b d => value_ofb T_long f &&
      if f =? -1 then (g =? 0) && (b =? 0) && match d with [] => true | _ => false end
      else (0 <=? g) && (0 <=? b) && (g + b <=? 128) && (Z.of_nat (length d) =? g + b) && forallb byteb d
  | _, _ => false
  end.
Lemma bytesb_ok l : forallb byteb l = true -> Forall is_byte l.
Proof. intros H. apply Forall_forall. intros x X. rewrite forallb_forall in H. specialize (H x X). unfold byteb in H. apply andb_true_iff in H. rewrite Z.leb_le, Z.ltb_lt in H. exact H. Qed.
Lemma typedb_ok t : forall v, typedb t v = true -> typed t v.
Proof.
  induction t as [s| |n|u|t IH|t IH|multi lt t IH| |a IHa b IHb|n t IH|]; intros v H; destruct v; try discriminate H; cbn [typedb typed] in *; auto; try (destruct v; discriminate H).
  - apply value_ofb_ok. exact H.
  - apply andb_true_iff in H. rewrite Z.ltb_lt in H. split; [exact (proj1 H)|apply bytesb_ok, H].
  - apply andb_true_iff in H. rewrite Nat.eqb_eq in H. split; [exact (proj1 H)|apply bytesb_ok, H].
  - rewrite !andb_true_iff, !Z.ltb_lt, Z.leb_le in H. tauto.
  - apply andb_true_iff in H. rewrite Z.ltb_lt in H. split; [exact (proj1 H)|]. destruct H as [_ H]. rewrite forallb_forall in H. apply Forall_forall. auto.
  - apply andb_true_iff in H. split; [apply IHa|apply IHb]; apply H.
  - apply andb_true_iff in H. destruct H as [V H]. split; [exact (value_ofb_ok T_long _ V)|]. destruct (format =? -1).
    + rewrite !andb_true_iff, !Z.eqb_eq in H. destruct H as [[G B] D]. destruct data; [auto|discriminate].
    + rewrite !andb_true_iff, !Z.leb_le, Z.eqb_eq in H. destruct H as [[[[G B] S'] L] F]. repeat split; auto. apply bytesb_ok. exact F.
Qed.
Definition sent_eqb (a b : sent) : bool :=
  match a, b with Number n, Number m | Fixed n, Fixed m => (n =? m)%nat | Dynamic, Dynamic | Xid_data, Xid_data => true | _, _ => false end.
Fixpoint rows_eqb (a b : list (string * sent)) : bool :=
  match a, b with
  | [], [] => true
  | (n, s) :: a, (m, t) :: b => String.eqb n m && sent_eqb s t && rows_eqb a b
  | _, _ => false
  end.
Lemma rows_eqb_ok a : forall b, rows_eqb a b = true -> a = b.
Proof.
  induction a as [|[n s] a IH]; intros [|[m t] b] H; try discriminate; [reflexivity|]. cbn [rows_eqb] in H. rewrite !andb_true_iff, String.eqb_eq in H. destruct H as [[E S'] R].
  subst m. rewrite (IH b R). f_equal. f_equal. destruct s, t; try discriminate; cbn in S'; try (apply Nat.eqb_eq in S'; subst); reflexivity.
Qed.
Definition doc_ok (k : kind) : bool :=
  match documented k with
  | None => true
  | Some d =>
      (number k =? d_number d) && forallb (fun v => Bool.eqb (compatible k v) (existsb (Z.eqb v) (d_versions d))) versions && rows_eqb (rows "" (Group (layout k))) (d_rows d) &&
      typedb (message_type k) (d_example d) && if list_eq_dec Z.eq_dec (write (Network Big) (message_type k) (d_example d)) (d_bytes d) then true else false
  end.
Lemma doc_ok_all : forallb doc_ok kinds = true.
Proof. vm_compute. reflexivity. Qed.
Lemma all_kinds k : In k kinds.
Proof. destruct k; cbn; tauto. Qed.
Lemma all_documented k d : documented k = Some d ->
  number k = d_number d /\ (forall v, In v versions -> (compatible k v = true <-> In v (d_versions d))) /\ rows "" (Group (layout k)) = d_rows d /\
  typed (message_type k) (d_example d) /\ forall h, write (Network h) (message_type k) (d_example d) = d_bytes d.
Proof.
  intros D. pose proof doc_ok_all as A. rewrite forallb_forall in A. specialize (A k (all_kinds k)). unfold doc_ok in A. rewrite D in A.
  rewrite !andb_true_iff in A. destruct A as [[[[N V] R] T] W]. apply Z.eqb_eq in N. apply typedb_ok in T. apply rows_eqb_ok in R. rewrite forallb_forall in V.
  split; [exact N|]. split; [|split; [exact R|split; [exact T|]]].
  - intros v IV. specialize (V v IV). apply Bool.eqb_prop in V. rewrite V, existsb_exists. split.
    + intros [x [X E]]. apply Z.eqb_eq in E. subst x. exact X.
    + intros X. exists v. rewrite Z.eqb_refl. auto.
  - intros h. rewrite (write_network h Big) by exact T. destruct (list_eq_dec Z.eq_dec _ _) as [E|]; [exact E|discriminate].
Qed.
(* every message that is sent is one of the version *)
Lemma outgoing_compatible v m k x : In v versions -> sendable m -> outgoing v m = Some (k, x) -> compatible k v = true.
Proof.
  intros V S' O. cbn [versions In] in V.
  destruct m as [m|m|m|m|m|m|k0 x0]; cbn [outgoing] in O;
    try (destruct V as [<-|[<-|[<-|[<-|[<-|[]]]]]]; cbn in O; injection O as <- <-; reflexivity).
  destruct S' as [_ N]. assert (C : compatible k v = true \/ In k0 [K_call; K_call_v2; K_reply; K_reply_v2; K_conv_request; K_conv_request_v2; K_enqueue_reply; K_enqueue_reply_v1_2; K_dequeue_reply; K_dequeue_reply_v1_2;
              K_discovery_reply; K_discovery_reply_v1_3]); [|tauto].
  destruct k0; try (right; cbn; tauto); left; try (injection O as <- <-; destruct V as [<-|[<-|[<-|[<-|[<-|[]]]]]]; reflexivity);
  (match type of O with (if ?c then _ else _) = _ => destruct c eqn:E; [injection O as <- <-; exact E|discriminate] end).
Qed.
Lemma number_injective k k' : number k = number k' -> k = k'.
Proof.
  intros E. assert (A : forallb (fun k => match kind_of (number k) with Some k' => kind_beq k k' | None => false end) kinds = true) by (vm_compute; reflexivity).
  rewrite forallb_forall in A. pose proof (A k (all_kinds k)) as B. pose proof (A k' (all_kinds k')) as C. rewrite E in B. destruct (kind_of (number k')); [|discriminate].
  apply internal_kind_dec_bl in B. apply internal_kind_dec_bl in C. congruence.
Qed.
Lemma kind_of_number k : kind_of (number k) = Some k.
Proof. destruct k; reflexivity. Qed.

(* ---------------------------------------------------------------- C57 *)
Lemma own_versions_in own v : In own versions -> (In v (own_versions own) <-> In v versions /\ v <= own).
Proof.
  intros O. assert (A : forallb (fun o => forallb (fun v => Bool.eqb (existsb (Z.eqb v) (own_versions o)) (v <=? o)) versions && forallb (fun v => existsb (Z.eqb v) versions) (own_versions o)) versions = true)
    by (vm_compute; reflexivity).
  rewrite forallb_forall in A. specialize (A own O). apply andb_true_iff in A. destruct A as [A B]. rewrite forallb_forall in A, B.
  assert (X : forall l, In v l <-> existsb (Z.eqb v) l = true).
  { intros l. rewrite existsb_exists. split; [intros I; exists v; rewrite Z.eqb_refl; auto|intros [y [Y E]]; apply Z.eqb_eq in E; subst; exact Y]. }
  split.
  - intros I. assert (V : In v versions) by (apply X, B; exact I). split; [exact V|]. specialize (A v V). apply Bool.eqb_prop in A. apply Z.leb_le. rewrite <- A. apply X. exact I.
  - intros [V L]. specialize (A v V). apply Bool.eqb_prop in A. apply X. rewrite A. apply Z.leb_le. exact L.
Qed.
Lemma own_versions_sorted own : In own versions -> StronglySorted (fun a b => b < a) (own_versions own).
Proof.
  intros O. cbn [versions In] in O. destruct O as [<-|[<-|[<-|[<-|[<-|[]]]]]]; vm_compute; repeat constructor.
Qed.
Lemma existsb_eqb v l : existsb (Z.eqb v) l = true <-> In v l.
Proof. rewrite existsb_exists. split; [intros [y [Y E]]; apply Z.eqb_eq in E; subst; exact Y|intros I; exists v; rewrite Z.eqb_refl; auto]. Qed.
Lemma first_of_both_max l other v : StronglySorted (fun a b => b < a) l -> first_of_both l other = Some v ->
  In v l /\ In v other /\ forall w, In w l -> In w other -> w <= v.
Proof.
  intros S'. unfold first_of_both. induction S' as [|a l S' IH F]; cbn [find]; [discriminate|]. destruct (existsb (Z.eqb a) other) eqn:E.
  - intros [= <-]. apply existsb_eqb in E. split; [left; reflexivity|]. split; [exact E|]. intros w [W|W] _; [lia|]. rewrite Forall_forall in F. specialize (F w W). lia.
  - intros H. destruct (IH H) as [A [B C]]. split; [right; exact A|]. split; [exact B|]. intros w [W|W] O; [|auto]. subst w. apply existsb_eqb in O. congruence.
Qed.
Lemma first_of_both_none l other : first_of_both l other = None -> forall w, In w l -> In w other -> False.
Proof. intros H w W O. unfold first_of_both in H. pose proof (find_none _ _ H w W) as N. cbn in N. apply existsb_eqb in O. congruence. Qed.
Lemma in_end_spec own req : In own versions ->
  match in_end own req with
  | Connected v => in_reply own req = v /\ In v versions /\ v <= own /\ In v req /\ forall w, In w versions -> w <= own -> In w req -> w <= v
  | Invalid_version => in_reply own req = 0 /\ forall w, In w versions -> w <= own -> ~ In w req
  end.
Proof.
  intros O. unfold in_end, check. pose proof (own_versions_sorted own O) as S'. unfold in_reply. destruct (first_of_both (own_versions own) req) as [v|] eqn:E.
  - destruct (first_of_both_max _ _ _ S' E) as [A [B C]]. rewrite (proj2 (existsb_eqb v (own_versions own)) A). apply own_versions_in in A; [|exact O].
    repeat split; try tauto. intros w W L R. apply C; [|exact R]. apply own_versions_in; auto.
  - assert (Z0 : existsb (Z.eqb 0) (own_versions own) = false).
    { destruct (existsb (Z.eqb 0) (own_versions own)) eqn:X; [|reflexivity]. apply existsb_eqb in X. apply own_versions_in in X; [|exact O]. cbn in X. lia. }
    rewrite Z0. split; [reflexivity|]. intros w W L R. apply (first_of_both_none _ _ E w); [|exact R]. apply own_versions_in; auto.
Qed.
Lemma out_end_spec own v : In own versions -> out_end own v = if existsb (Z.eqb v) versions && (v <=? own) then Connected v else Invalid_version.
Proof.
  intros O. unfold out_end, check. destruct (existsb (Z.eqb v) (own_versions own)) eqn:E.
  - apply existsb_eqb, own_versions_in in E; [|exact O]. destruct E as [V L]. apply existsb_eqb in V. rewrite V. rewrite (proj2 (Z.leb_le v own) L). reflexivity.
  - destruct (existsb (Z.eqb v) versions) eqn:V; [|reflexivity]. destruct (Z.leb_spec v own); [|reflexivity]. cbn [andb].
    apply existsb_eqb in V. assert (I : In v (own_versions own)) by (apply own_versions_in; auto). apply existsb_eqb in I. congruence.
Qed.
Lemma negotiated a b : In a versions -> In b versions ->
  in_end b (out_request a) = Connected (Z.min a b) /\ out_end a (in_reply b (out_request a)) = Connected (Z.min a b).
Proof.
  intros A B. cbn [versions In] in A, B. destruct A as [<-|[<-|[<-|[<-|[<-|[]]]]]], B as [<-|[<-|[<-|[<-|[<-|[]]]]]]; vm_compute; auto.
Qed.

(* ---------------------------------------------------------------- C58 *)
Lemma xid_round x : well_formed x -> val_xid (xid_val x) = Some x.
Proof.
  intros W. unfold xid_val. destruct (Z.eqb_spec (x_format x) (-1)) as [E|E]; [rewrite (W E); reflexivity|destruct x; reflexivity].
Qed.
Lemma payload_round p : val_payload (payload_val p) = Some p. Proof. destruct p; reflexivity. Qed.
Lemma option_round o : val_option (option_val o) = Some o. Proof. destruct o; reflexivity. Qed.
Lemma bool_round b : val_bool (bool_val b) = Some b. Proof. destruct b; reflexivity. Qed.
Lemma all_of_map {A B} (f : val -> option A) (g : B -> val) (c : B -> A) l : (forall b, f (g b) = Some (c b)) -> all_of f (map g l) = Some (map c l).
Proof. intros H. induction l as [|b l IH]; [reflexivity|]. cbn [map all_of]. rewrite H, IH. reflexivity. Qed.
Lemma receive_sent h h' k x : typed (message_type k) x -> receive h' (number k, write (Network h) (message_type k) x) = incoming k x.
Proof.
  intros T. unfold receive. cbn [fst snd]. rewrite kind_of_number. pose proof (read_write (Network h) (Network h') (message_type k) I x (default (message_type k)) [] T (fresh_default _)) as R.
  rewrite app_nil_r in R. rewrite R. reflexivity.
Qed.
Definition discoverable (s : service_info) : service_info :=
  {| i_name := i_name s; i_category := i_category s; i_transaction := i_transaction s; i_timeout := i_timeout s; i_hops := i_hops s; i_visibility := 1 |}.
Lemma queue_message_round q : val_queue_message (queue_message_val q) = Some q.
Proof. destruct q as [a b c d [t u] e f]. reflexivity. Qed.
Lemma service_round s : val_service (service_val s) = Some (discoverable s). Proof. destruct s; reflexivity. Qed.
Lemma queue_round q : val_queue (queue_val q) = Some q. Proof. destruct q as [n c d [] []]; reflexivity. Qed.
Lemma queue_v1_3_round q : val_queue_v1_3 (queue_v1_3_val q) = Some q. Proof. destruct q; reflexivity. Qed.
Lemma typed_num t x : typed (T_num t) (V_num x) <-> value_of t x. Proof. reflexivity. Qed.

(* the older form of a message that can be sent has values of its types *)
Ltac split_typed T := repeat match type of T with _ /\ _ => let T1 := fresh T in destruct T as [T1 T]; split_typed T1 | _ => idtac end.
Lemma typed_call_v2 m : typed (message_type K_call) (call_val m) -> typed (message_type K_call_v2) (call_v2_val (to_call_v2 m)).
Proof.
  intros T. change (typed (T_fixed 16) (V_bytes (c_execution m)) /\ typed T_bytes (V_bytes (c_service m)) /\ typed (T_optional (T_duration 1)) (option_val (c_remaining m)) /\
    (typed (T_fixed 8) (V_bytes (c_span m)) /\ typed T_bytes (V_bytes (c_parent m)) /\ True) /\ typed T_xid (xid_val (c_trid m)) /\ typed (T_num T_long) (V_num (c_flags m)) /\
    typed (T_pair T_bytes (T_pair T_bytes T_unit)) (payload_val (c_buffer m)) /\ True) in T.
  destruct T as [T1 [T2 [T3 [[T4 [T5 _]] [T6 [T7 [T8 _]]]]]]].
  change (typed (T_fixed 16) (V_bytes (c_execution m)) /\ typed T_bytes (V_bytes (c_service m)) /\ typed (T_duration 1) (V_num (match c_remaining m with Some t => t | None => 0 end)) /\
    typed T_bytes (V_bytes (c_parent m)) /\ typed T_xid (xid_val (c_trid m)) /\ typed (T_num T_long) (V_num (c_flags m)) /\
    typed (T_pair T_bytes (T_pair T_bytes T_unit)) (payload_val (c_buffer m)) /\ True).
  repeat (split; [assumption|]). split; [|auto]. destruct (c_remaining m); [exact T3|cbn; lia].
Qed.
Lemma typed_conv_v2 m : typed (message_type K_conv_request) (conv_val m) -> typed (message_type K_conv_request_v2) (conv_v2_val (to_conv_v2 m)).
Proof.
  intros T. change (typed (T_fixed 16) (V_bytes (v_execution m)) /\ typed T_bytes (V_bytes (v_service m)) /\ typed (T_optional (T_duration 1)) (option_val (v_remaining m)) /\
    (typed (T_fixed 8) (V_bytes (v_span m)) /\ typed T_bytes (V_bytes (v_parent m)) /\ True) /\ typed T_xid (xid_val (v_trid m)) /\ typed (T_num T_short) (V_num (v_duplex m)) /\
    typed (T_pair T_bytes (T_pair T_bytes T_unit)) (payload_val (v_buffer m)) /\ True) in T.
  destruct T as [T1 [T2 [T3 [[T4 [T5 _]] [T6 [T7 [T8 _]]]]]]].
  change (typed (T_fixed 16) (V_bytes (v_execution m)) /\ typed T_bytes (V_bytes (v_service m)) /\ typed (T_duration 1) (V_num (match v_remaining m with Some t => t | None => 0 end)) /\
    typed T_bytes (V_bytes (v_parent m)) /\ typed T_xid (xid_val (v_trid m)) /\ typed (T_num T_short) (V_num (w_duplex (to_conv_v2 m))) /\
    typed (T_pair T_bytes (T_pair T_bytes T_unit)) (payload_val (v_buffer m)) /\ True).
  repeat (split; [assumption|]). split; [destruct (v_remaining m); [exact T3|cbn; lia]|]. repeat (split; [assumption|]). split; [cbn; lia|auto].
Qed.
Lemma typed_reply_v2 m : typed (message_type K_reply) (reply_val m) -> typed (message_type K_reply_v2) (reply_v2_val (to_reply_v2 m)).
Proof.
  intros T. destruct T as [T1 [T2 [T3 [T4 [T5 T6]]]]].
  change (typed (T_fixed 16) (V_bytes (r_execution m)) /\ typed (T_num T_int) (V_num (r_result m)) /\ typed (T_num T_long) (V_num (r_user m)) /\ typed T_xid (xid_val null_xid) /\
    typed (T_num T_uchar) (V_num (r_state m)) /\ typed (T_pair T_bytes (T_pair T_bytes T_unit)) (payload_val (r_buffer m)) /\ True).
  repeat (split; [assumption|]). split; [apply typedb_ok; reflexivity|]. auto.
Qed.
Lemma typed_enqueue_v1_2 m : typed (message_type K_enqueue_reply) (enqueue_reply_val m) -> typed (message_type K_enqueue_reply_v1_2) (enqueue_reply_v1_2_val (to_enqueue_reply_v1_2 m)).
Proof. intros [T1 [T2 T3]]. split; [exact T1|]. split; [exact T2|exact I]. Qed.
Lemma typed_dequeue_v1_2 m : typed (message_type K_dequeue_reply) (dequeue_reply_val m) -> typed (message_type K_dequeue_reply_v1_2) (dequeue_reply_v1_2_val (to_dequeue_reply_v1_2 m)).
Proof.
  intros [T1 [T2 T3]]. split; [exact T1|]. split; [|exact I]. unfold to_dequeue_reply_v1_2. cbn [h_message]. destruct (g_message m) as [q|]; cbn [map typed length]; unfold sizes.
  - split; [reflexivity|]. constructor; [exact T2|constructor].
  - split; [reflexivity|constructor].
Qed.
Lemma typed_discovery_v1_3 m : typed (message_type K_discovery_reply) (discovery_reply_val m) -> typed (message_type K_discovery_reply_v1_3) (discovery_reply_v1_3_val (to_discovery_reply_v1_3 m)).
Proof.
  intros [T1 [T2 [T3 [T4 T5]]]]. split; [exact T1|]. split; [exact T2|]. split; [exact T3|]. split; [|exact I].
  change (typed (T_sequence (type_of queue)) (V_list (map queue_val (y_queues m)))) in T4. destruct T4 as [L F].
  change (typed (T_sequence (type_of queue_v1_3)) (V_list (map queue_v1_3_val (map (fun q => {| u3_name := u_name q; u3_retries := u_count q |}) (y_queues m))))).
  split; [rewrite !map_length in *; exact L|]. clear L. induction (y_queues m) as [|q l IH]; cbn [map] in *; constructor.
  - inversion F as [|? ? Q ?]; subst. destruct Q as [Q1 [[Q2 _] _]]. split; [exact Q1|]. split; [exact Q2|exact I].
  - apply IH. inversion F; assumption.
Qed.

Lemma is_nil_spec l : length l = 16%nat -> is_nil l = true <-> l = repeat 0 16.
Proof.
  intros L. unfold is_nil. rewrite forallb_forall. split.
  - intros F. apply (nth_ext _ _ 0 0); [rewrite L; reflexivity|]. intros n N. rewrite nth_repeat. symmetry. apply Z.eqb_eq. apply F. apply nth_In. exact N.
  - intros -> x X. apply repeat_spec in X. subst. reflexivity.
Qed.
Lemma same_services l : Forall2 same_service l (map discoverable l).
Proof. induction l as [|s l IH]; constructor; [repeat split|exact IH]. Qed.

Lemma delivered_same h h' v m : In v versions -> sendable m ->
  match send h v m with
  | Some _ => exists m', delivered h h' v m = Some m' /\ same v m m'
  | None => exists k x, m = Other k x /\ compatible k v = false
  end.
Proof.
  intros V S'. unfold delivered, send. destruct m as [m|m|m|m|m|m|k x]; cbn [sendable outgoing] in *.
  - destruct S' as [T W]. destruct (compatible K_call v) eqn:C.
    + rewrite receive_sent by exact T. unfold incoming, call_val. cbn [values val_call]. rewrite option_round, xid_round, payload_round by exact W. cbn [and_then]. eexists. split; [reflexivity|].
      assert (E : v <? 1003 = false) by (unfold compatible in C; cbn in C; apply andb_true_iff in C; rewrite !Z.leb_le in C; apply Z.ltb_ge; lia).
      cbn. unfold same_deadline. rewrite E. repeat split.
    + rewrite receive_sent by (apply typed_call_v2; exact T). unfold incoming, call_v2_val. cbn [values val_call_v2]. rewrite xid_round, payload_round by exact W. cbn [and_then]. eexists. split; [reflexivity|].
      assert (E : v <? 1003 = true) by (destruct V as [<-|[<-|[<-|[<-|[<-|[]]]]]]; cbn in C |- *; congruence).
      cbn. unfold same_deadline. rewrite E. repeat split. destruct (c_remaining m) as [t|]; reflexivity.
  - destruct (compatible K_reply v) eqn:C.
    + rewrite receive_sent by exact S'. unfold incoming, reply_val. cbn [values val_reply]. rewrite payload_round. cbn [and_then]. eexists. split; [reflexivity|]. cbn. destruct m; reflexivity.
    + rewrite receive_sent by (apply typed_reply_v2; exact S'). unfold incoming, reply_v2_val. cbn [values val_reply_v2]. rewrite xid_round, payload_round by (intros _; reflexivity). cbn [and_then]. eexists. split; [reflexivity|]. cbn. destruct m; reflexivity.
  - destruct S' as [T W]. destruct (compatible K_conv_request v) eqn:C.
    + rewrite receive_sent by exact T. unfold incoming, conv_val. cbn [values val_conv]. rewrite option_round, xid_round, payload_round by exact W. cbn [and_then]. eexists. split; [reflexivity|].
      assert (E : v <? 1003 = false) by (unfold compatible in C; cbn in C; apply andb_true_iff in C; rewrite !Z.leb_le in C; apply Z.ltb_ge; lia).
      cbn. unfold same_deadline. rewrite E. repeat split. auto.
    + rewrite receive_sent by (apply typed_conv_v2; exact T). unfold incoming, conv_v2_val. cbn [values val_conv_v2]. rewrite xid_round, payload_round by exact W. cbn [and_then]. eexists. split; [reflexivity|].
      assert (E : v <? 1003 = true) by (destruct V as [<-|[<-|[<-|[<-|[<-|[]]]]]]; cbn in C |- *; congruence).
      cbn. unfold same_deadline. rewrite E. repeat split; try (destruct (v_remaining m) as [t|]; reflexivity). apply Z.ltb_lt in E. lia.
  - destruct (compatible K_enqueue_reply v) eqn:C.
    + rewrite receive_sent by exact S'. unfold incoming, enqueue_reply_val. cbn [values val_enqueue_reply and_then]. eexists. split; [reflexivity|].
      assert (E : v <? 1003 = false) by (unfold compatible in C; cbn in C; apply andb_true_iff in C; rewrite !Z.leb_le in C; apply Z.ltb_ge; lia). cbn. rewrite E. auto.
    + rewrite receive_sent by (apply typed_enqueue_v1_2; exact S'). unfold incoming, enqueue_reply_v1_2_val. cbn [values val_enqueue_reply_v1_2 and_then]. eexists. split; [reflexivity|].
      assert (E : v <? 1003 = true) by (destruct V as [<-|[<-|[<-|[<-|[<-|[]]]]]]; cbn in C |- *; congruence). cbn [same from_enqueue_reply_v1_2 to_enqueue_reply_v1_2 e_execution e_id e_code f_execution f_id]. rewrite E. repeat split.
      destruct S' as [_ [[L _] _]]. pose proof (is_nil_spec _ L) as N. destruct (list_eq_dec Z.eq_dec (e_id m) (repeat 0 16)) as [I|I]; destruct (is_nil (e_id m)); try reflexivity; exfalso; [apply N in I; discriminate|apply I, N; reflexivity].
  - destruct (compatible K_dequeue_reply v) eqn:C.
    + rewrite receive_sent by exact S'. unfold incoming, dequeue_reply_val. cbn [values val_dequeue_reply].
      assert (E : v <? 1003 = false) by (unfold compatible in C; cbn in C; apply andb_true_iff in C; rewrite !Z.leb_le in C; apply Z.ltb_ge; lia).
      destruct (g_message m) as [q|] eqn:G; [rewrite queue_message_round|]; cbn [and_then]; eexists; (split; [reflexivity|]); cbn; rewrite E, G; auto.
    + rewrite receive_sent by (apply typed_dequeue_v1_2; exact S'). unfold incoming, dequeue_reply_v1_2_val, to_dequeue_reply_v1_2. cbn [values val_dequeue_reply_v1_2 h_execution h_message].
      assert (E : v <? 1003 = true) by (destruct V as [<-|[<-|[<-|[<-|[<-|[]]]]]]; cbn in C |- *; congruence).
      rewrite (all_of_map _ _ (fun q => q) _ queue_message_round), map_id. cbn [and_then]. eexists. split; [reflexivity|]. destruct (g_message m) as [q|] eqn:G; cbn; rewrite E, G; auto.
  - destruct (compatible K_discovery_reply v) eqn:C.
    + rewrite receive_sent by exact S'. unfold incoming, discovery_reply_val. cbn [values val_discovery_reply]. rewrite (all_of_map _ _ _ _ service_round). cbn [and_then].
      rewrite (all_of_map _ _ (fun q => q) _ queue_round), map_id. cbn [and_then]. eexists. split; [reflexivity|].
      assert (E : v <? 1004 = false) by (unfold compatible in C; cbn in C; apply andb_true_iff in C; rewrite !Z.leb_le in C; apply Z.ltb_ge; lia).
      cbn [same y_execution y_id y_name y_services y_queues]. split; [reflexivity|]. split; [reflexivity|]. split; [reflexivity|]. split; [apply same_services|].
      induction (y_queues m) as [|q l IH]; constructor; [|exact IH]. unfold same_queue. rewrite E. repeat split.
    + rewrite receive_sent by (apply typed_discovery_v1_3; exact S'). unfold incoming, discovery_reply_v1_3_val, to_discovery_reply_v1_3. cbn [values val_discovery_reply_v1_3 z_execution z_id z_name z_services z_queues].
      rewrite (all_of_map _ _ _ _ service_round). cbn [and_then]. rewrite (all_of_map _ _ (fun q => q) _ queue_v1_3_round), map_id. cbn [and_then]. eexists. split; [reflexivity|].
      assert (E : v <? 1004 = true) by (destruct V as [<-|[<-|[<-|[<-|[<-|[]]]]]]; cbn in C |- *; congruence).
      cbn [same from_discovery_reply_v1_3 y_execution y_id y_name y_services y_queues z_execution z_id z_name z_services z_queues]. split; [reflexivity|]. split; [reflexivity|]. split; [reflexivity|]. split; [apply same_services|].
      induction (y_queues m) as [|q l IH]; constructor; [|exact IH]. unfold same_queue. rewrite E. repeat split.
  - destruct S' as [T N].
    assert (A : forall k, typed (message_type k) x -> incoming k x = Some (Other k x) -> exists m', receive h' (number k, write (Network h) (message_type k) x) = Some m' /\ same v (Other k x) m').
    { intros k' T' I'. rewrite receive_sent by exact T'. exists (Other k' x). split; [exact I'|split; reflexivity]. }
    destruct k; try (exfalso; apply N; cbn; tauto); try (apply A; [exact T|reflexivity]);
      (match goal with |- match (match (if ?c then _ else _) with _ => _ end) with _ => _ end => destruct c eqn:E; [apply A; [exact T|reflexivity]|eauto] end).
Qed.

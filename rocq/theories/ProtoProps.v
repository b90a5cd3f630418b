(* The protocol between domains: C56 - C58. *)
From Coq Require Import String ZArith List Bool Lia.
From Verif Require Import Bytes BoModel BoSpec ArcModel ArcSpec ArcProofs ProtoModel ProtoDoc ProtoSpec ProtoProofs.
Import ListNotations.
Local Open Scope Z_scope.

(* every documented message has the documented number, is part of the documented versions, is written with the documented members in the
   documented order and sizes, and the example is written as the documented bytes, on every platform *)
Theorem C56_documented k d : documented k = Some d ->
  number k = d_number d /\ (forall v, In v versions -> (compatible k v = true <-> In v (d_versions d))) /\ rows "" (Group (layout k)) = d_rows d /\
  typed (message_type k) (d_example d) /\ forall h, write (Network h) (message_type k) (d_example d) = d_bytes d.
Proof. exact (all_documented k d). Qed.
(* and the bytes of any value, not only the examples, are what the tables mean *)
Theorem C56_bytes h t v l : typed t v -> (wire t v l <-> l = write (Network h) t v).
Proof. exact (wire_iff h t v l). Qed.
(* a message is recognised by its number *)
Theorem C56_numbers k k' : number k = number k' -> k = k'.
Proof. exact (number_injective k k'). Qed.
(* with a version, only messages of that version are sent *)
Theorem C56_only_known v m k x : In v versions -> sendable m -> outgoing v m = Some (k, x) -> compatible k v = true.
Proof. exact (outgoing_compatible v m k x). Qed.
(* not all of them are documented: the discovery reply before 1.4 *)
Theorem C56_all_documented_refuted : exists v m k x, In v versions /\ sendable m /\ outgoing v m = Some (k, x) /\ documented k = None.
Proof.
  exists 1003, (Discovery_reply {| y_execution := repeat 1 16; y_id := repeat 2 16; y_name := [65]; y_services := []; y_queues := [] |}). do 2 eexists.
  split; [cbn; tauto|]. split; [apply typedb_ok; vm_compute; reflexivity|]. split; reflexivity.
Qed.
(* the documentation says that an XID with format 0 is followed by nothing; it is followed by its lengths and data, and the null XID is -1 *)
Theorem C56_null_xid_refuted : exists v l, typed T_xid v /\ wire T_xid v l /\ firstn 8 l = repeat 0 8 /\ (8 < length l)%nat.
Proof.
  exists (V_xid 0 1 0 [7]), (write (Network Big) T_xid (V_xid 0 1 0 [7])). assert (T : typed T_xid (V_xid 0 1 0 [7])) by (apply typedb_ok; reflexivity).
  split; [exact T|]. split; [apply write_wire; exact T|]. vm_compute. split; [reflexivity|lia].
Qed.

(* two domains end up with the highest version that both have, and both with the same *)
Theorem C57_highest a b : In a versions -> In b versions ->
  in_end b (out_request a) = Connected (Z.min a b) /\ out_end a (in_reply b (out_request a)) = Connected (Z.min a b).
Proof. exact (negotiated a b). Qed.
(* whatever a peer asks for: the highest version that it asked for and the domain has, or it's told 0 and refused *)
Theorem C57_inbound own req : In own versions ->
  match in_end own req with
  | Connected v => in_reply own req = v /\ In v versions /\ v <= own /\ In v req /\ forall w, In w versions -> w <= own -> In w req -> w <= v
  | Invalid_version => in_reply own req = 0 /\ forall w, In w versions -> w <= own -> ~ In w req
  end.
Proof. exact (in_end_spec own req). Qed.
(* whatever a peer replies: it's a version that was asked for, or the peer is refused *)
Theorem C57_outbound own v : In own versions -> out_end own v = if existsb (Z.eqb v) versions && (v <=? own) then Connected v else Invalid_version.
Proof. exact (out_end_spec own v). Qed.

(* what arrives is what was sent, but for what the version can't carry; a message isn't sent only if the version doesn't have it *)
Theorem C58_delivered h h' v m : In v versions -> sendable m ->
  match send h v m with
  | Some _ => exists m', delivered h h' v m = Some m' /\ same v m m'
  | None => exists k x, m = Other k x /\ compatible k v = false
  end.
Proof. exact (delivered_same h h' v m). Qed.
(* before 1.3, a callee that should begin with receiving in a conversation is told to send *)
Definition ex_conv : conv :=
  {| v_execution := repeat 1 16; v_service := [65]; v_remaining := Some 5; v_span := repeat 2 8; v_parent := []; v_trid := {| x_format := 42; x_gtrid := 1; x_bqual := 1; x_data := [1; 2] |};
     v_duplex := 1; v_buffer := {| p_type := [46]; p_data := [1; 2; 3] |}; v_requested := None; v_header := []; v_pending := 0 |}.
Theorem C58_duplex_refuted : exists h h' v m m', In v versions /\ sendable (Conv m) /\ delivered h h' v (Conv m) = Some (Conv m') /\ v_duplex m = 1 /\ v_duplex m' = 0.
Proof.
  exists Little, Little, 1002, ex_conv. eexists. split; [cbn; tauto|]. split; [split; [apply typedb_ok; vm_compute; reflexivity|discriminate]|].
  split; [vm_compute; reflexivity|]. split; reflexivity.
Qed.
(* before 1.3, a deadline that has passed becomes no deadline at all *)
Definition ex_call (t : option Z) : call :=
  {| c_execution := repeat 1 16; c_service := [65]; c_remaining := t; c_span := repeat 2 8; c_parent := [66; 67]; c_trid := {| x_format := 42; x_gtrid := 1; x_bqual := 1; x_data := [1; 2] |};
     c_flags := 8; c_buffer := {| p_type := [46]; p_data := [1; 2; 3] |}; c_requested := Some [1]; c_header := [([1], [2])]; c_pending := 7 |}.
Theorem C58_deadline_refuted : exists h h' v m m', In v versions /\ sendable (Call m) /\ delivered h h' v (Call m) = Some (Call m') /\ c_remaining m = Some 0 /\ c_remaining m' = None.
Proof.
  exists Little, Little, 1002, (ex_call (Some 0)). eexists. split; [cbn; tauto|]. split; [split; [apply typedb_ok; vm_compute; reflexivity|discriminate]|].
  split; [vm_compute; reflexivity|]. split; reflexivity.
Qed.
(* before 1.4, a queue that is disabled is seen as enabled *)
Theorem C58_disabled_queue_refuted : exists h h' v m m' q q', In v versions /\ sendable (Discovery_reply m) /\ delivered h h' v (Discovery_reply m) = Some (Discovery_reply m') /\
  y_queues m = [q] /\ y_queues m' = [q'] /\ u_enqueue q = false /\ u_enqueue q' = true.
Proof.
  exists Little, Little, 1003, {| y_execution := repeat 1 16; y_id := repeat 2 16; y_name := [65]; y_services := []; y_queues := [{| u_name := [66]; u_count := 3; u_delay := 5; u_enqueue := false; u_dequeue := true |}] |}.
  do 3 eexists. split; [cbn; tauto|]. split; [apply typedb_ok; vm_compute; reflexivity|]. split; [vm_compute; reflexivity|]. repeat split; reflexivity.
Qed.
(* before 1.3, a failed dequeue is reported as an empty queue *)
Theorem C58_dequeue_error_refuted : exists h h' v m m', In v versions /\ sendable (Dequeue_reply m) /\ delivered h h' v (Dequeue_reply m) = Some (Dequeue_reply m') /\ g_code m = 30 /\ g_code m' = 1.
Proof.
  exists Little, Little, 1002, {| g_execution := repeat 1 16; g_message := None; g_code := 30 |}. eexists. split; [cbn; tauto|]. split; [apply typedb_ok; vm_compute; reflexivity|].
  split; [vm_compute; reflexivity|]. split; reflexivity.
Qed.

Example ex_sendable : sendable (Call (ex_call (Some 7))) /\ delivered Little Big 1004 (Call (ex_call (Some 7))) <> delivered Little Big 1000 (Call (ex_call (Some 7))).
Proof. split; [split; [apply typedb_ok; vm_compute; reflexivity|discriminate]|]. vm_compute. discriminate. Qed.
Example ex_negotiated : in_end 1002 [1004; 1003; 1001] = Connected 1001 /\ in_end 1000 [1004; 1003] = Invalid_version /\ out_end 1003 1004 = Invalid_version.
Proof. repeat split. Qed.
Example ex_documented : exists d, documented K_call = Some d /\ (100 < length (d_bytes d))%nat /\ length (d_rows d) = 17%nat.
Proof. eexists. split; [reflexivity|]. split; vm_compute; [lia|reflexivity]. Qed.

Print Assumptions C56_documented.
Print Assumptions C56_bytes.
Print Assumptions C56_numbers.
Print Assumptions C56_only_known.
Print Assumptions C56_all_documented_refuted.
Print Assumptions C56_null_xid_refuted.
Print Assumptions C57_highest.
Print Assumptions C57_inbound.
Print Assumptions C57_outbound.
Print Assumptions C58_delivered.
Print Assumptions C58_duplex_refuted.
Print Assumptions C58_deadline_refuted.
Print Assumptions C58_disabled_queue_refuted.
Print Assumptions C58_dequeue_error_refuted.

(* C56 - C58: what the tables of the protocol mean, what is said on the wire, and what a message is when it arrives. *)
From Coq Require Import String ZArith List Bool.
From Verif Require Import Bytes BoModel BoSpec ArcModel ArcSpec ProtoModel ProtoDoc.
Import ListNotations.
Local Open Scope Z_scope.

(* ---------------------------------------------------------------- C56 *)
(* the rows of a table for something of a shape *)
Definition dot (prefix name : string) : string := if String.eqb prefix "" then name else (prefix ++ "." ++ name)%string.
Fixpoint rows (prefix : string) (s : shape) : list (string * sent) :=
  match s with
  | Leaf (T_num n) => [(prefix, Number (width n))]
  | Leaf (T_duration _) => [(prefix, Number 8)]
  | Leaf (T_fixed n) => [(prefix, Fixed n)]
  | Leaf T_bytes => [(dot prefix "size", Number 8); (dot prefix "data", Dynamic)]
  | Leaf T_xid => [(dot prefix "formatID", Number 8); (dot prefix "gtrid_length", Number 8); (dot prefix "bqual_length", Number 8); (dot prefix "data", Xid_data)]
  | Leaf _ => []
  | Group l => (fix all (l : list (string * shape)) := match l with [] => [] | (n, s) :: r => rows (dot prefix n) s ++ all r end) l
  | Each s => (dot prefix "size", Number 8) :: rows (dot prefix "element") s
  | Maybe s => ("has_value"%string, Number 1) :: rows prefix s
  end.
(* the bytes for a value: numbers with the most significant byte first *)
Inductive wire : ty -> val -> list Z -> Prop :=
| W_num s x l : big_endian (width s) x l -> wire (T_num s) (V_num x) l
| W_bytes b l : big_endian 8 (Z.of_nat (length b)) l -> wire T_bytes (V_bytes b) (l ++ b)
| W_fixed n b : wire (T_fixed n) (V_bytes b) b
| W_duration u x l : big_endian 8 (x * u) l -> wire (T_duration u) (V_num x) l                  (* in nanoseconds *)
| W_none t l : big_endian 1 0 l -> wire (T_optional t) V_none l
| W_some t v l m : big_endian 1 1 l -> wire t v m -> wire (T_optional t) (V_some v) (l ++ m)
| W_sequence t vs l ms : big_endian 8 (Z.of_nat (length vs)) l -> wires t vs ms -> wire (T_sequence t) (V_list vs) (l ++ ms)
| W_insert m lt t vs l ms : big_endian 8 (Z.of_nat (length vs)) l -> wires t vs ms -> wire (T_insert m lt t) (V_list vs) (l ++ ms)
| W_unit : wire T_unit V_unit []
| W_pair a b v w l m : wire a v l -> wire b w m -> wire (T_pair a b) (V_pair v w) (l ++ m)
| W_tuple n t v l m : big_endian 8 (Z.of_nat n) l -> wire t v m -> wire (T_tuple n t) v (l ++ m)
| W_null l : big_endian 8 (-1) l -> wire T_xid (V_xid (-1) 0 0 []) l
| W_xid f g b d l m n : f <> -1 -> big_endian 8 f l -> big_endian 8 g m -> big_endian 8 b n -> wire T_xid (V_xid f g b d) (l ++ m ++ n ++ d)
with wires : ty -> list val -> list Z -> Prop :=
| Ws_nil t : wires t [] []
| Ws_cons t v vs l m : wire t v l -> wires t vs m -> wires t (v :: vs) (l ++ m).

(* ---------------------------------------------------------------- C58 *)
(* from one domain to another, with a connection that speaks a version *)
Definition delivered (h h' : host) (v : Z) (m : message) : option message := match send h v m with Some p => receive h' p | None => None end.
Definition well_formed (x : xid) : Prop := x_format x = -1 -> x = null_xid.
(* messages whose members have values of their types. A message that's the same for all versions is of a kind that is *)
Definition sendable (m : message) : Prop :=
  match m with
  | Call m => typed (message_type K_call) (call_val m) /\ well_formed (c_trid m)
  | Reply m => typed (message_type K_reply) (reply_val m)
  | Conv m => typed (message_type K_conv_request) (conv_val m) /\ well_formed (v_trid m)
  | Enqueue_reply m => typed (message_type K_enqueue_reply) (enqueue_reply_val m)
  | Dequeue_reply m => typed (message_type K_dequeue_reply) (dequeue_reply_val m)
  | Discovery_reply m => typed (message_type K_discovery_reply) (discovery_reply_val m)
  | Other k x => typed (message_type k) x /\
      ~ In k [K_call; K_call_v2; K_reply; K_reply_v2; K_conv_request; K_conv_request_v2; K_enqueue_reply; K_enqueue_reply_v1_2; K_dequeue_reply; K_dequeue_reply_v1_2;
              K_discovery_reply; K_discovery_reply_v1_3]
  end.
(* a deadline that hasn't passed is the same; the versions before 1.3 can't tell one that has passed from none *)
Definition same_deadline (v : Z) (sent got : option Z) : Prop :=
  if v <? 1003 then got = match sent with Some t => if 0 <? t then Some t else None | None => None end else got = sent.
Definition same_service (s s' : service_info) : Prop :=
  i_name s' = i_name s /\ i_category s' = i_category s /\ i_transaction s' = i_transaction s /\ i_timeout s' = i_timeout s /\ i_hops s' = i_hops s.
Definition same_queue (v : Z) (q q' : queue_info) : Prop :=
  u_name q' = u_name q /\ u_count q' = u_count q /\
  if v <? 1004 then u_delay q' = 0 /\ u_enqueue q' = true /\ u_dequeue q' = true
  else u_delay q' = u_delay q /\ u_enqueue q' = u_enqueue q /\ u_dequeue q' = u_dequeue q.
(* what arrives is what was sent, but for what the version has no room for *)
Definition same (v : Z) (m m' : message) : Prop :=
  match m, m' with
  | Call a, Call b =>
      c_execution b = c_execution a /\ c_service b = c_service a /\ c_parent b = c_parent a /\ c_trid b = c_trid a /\ c_flags b = c_flags a /\ c_buffer b = c_buffer a /\
      same_deadline v (c_remaining a) (c_remaining b) /\ (if v <? 1003 then c_span b = repeat 0 8 else c_span b = c_span a)
  | Reply a, Reply b => b = a
  | Conv a, Conv b =>
      v_execution b = v_execution a /\ v_service b = v_service a /\ v_parent b = v_parent a /\ v_trid b = v_trid a /\ v_buffer b = v_buffer a /\
      same_deadline v (v_remaining a) (v_remaining b) /\ (if v <? 1003 then v_span b = repeat 0 8 else v_span b = v_span a) /\
      (* duplex: 0 is send, 1 is receive *)
      (1003 <= v -> v_duplex b = v_duplex a) /\ (v_duplex a = 0 -> v_duplex b = 0)
  | Enqueue_reply a, Enqueue_reply b =>
      e_execution b = e_execution a /\ e_id b = e_id a /\
      (* 10 is no_queue *)
      if v <? 1003 then e_code b = (if list_eq_dec Z.eq_dec (e_id a) (repeat 0 16) then 10 else 0) else e_code b = e_code a
  | Dequeue_reply a, Dequeue_reply b =>
      g_execution b = g_execution a /\ g_message b = g_message a /\
      (* 1 is no_message *)
      if v <? 1003 then g_code b = (if g_message a then 0 else 1) else g_code b = g_code a
  | Discovery_reply a, Discovery_reply b =>
      y_execution b = y_execution a /\ y_id b = y_id a /\ y_name b = y_name a /\ Forall2 same_service (y_services a) (y_services b) /\ Forall2 (same_queue v) (y_queues a) (y_queues b)
  | Other k x, Other k' x' => k' = k /\ x' = x
  | _, _ => False
  end.

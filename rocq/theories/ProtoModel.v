(* The protocol between domains: the messages and how they are written (gateway/include/gateway/message.h:590-884), the versions
   (gateway/include/gateway/message/protocol{.h,/version.h,/transform.h}), the negotiation of the version
   (gateway/source/group/tcp/logical/connect/main.cpp), and what the groups do with a message before it's sent and after it's received
   (gateway/source/group/{outbound,inbound}/handle.cpp, inbound/task/create.cpp). All under /repo/middleware.
   Not modelled: handlers of the messages beyond the conversion; the transport is that of TcpModel. *)
From Coq Require Import String ZArith List Bool.
From Verif Require Import Bytes BoModel ArcModel.
Import ListNotations.
Local Open Scope Z_scope.

(* ---------------------------------------------------------------- the messages and their layout *)
(* the messages that are sent between domains; _v2, _v1_2 and _v1_3 are the ones for older versions *)
Inductive kind :=
| K_connect_request | K_connect_reply | K_disconnect_request | K_disconnect_reply
| K_discovery_request | K_discovery_reply | K_discovery_reply_v1_3 | K_implicit_update
| K_call | K_call_v2 | K_reply | K_reply_v2
| K_prepare_request | K_prepare_reply | K_commit_request | K_commit_reply | K_rollback_request | K_rollback_reply
| K_enqueue_request | K_enqueue_reply | K_enqueue_reply_v1_2
| K_dequeue_request | K_dequeue_reply | K_dequeue_reply_v1_2
| K_conv_request | K_conv_request_v2 | K_conv_reply | K_conv_send | K_conv_disconnect.
Definition kinds : list kind :=
  [K_connect_request; K_connect_reply; K_disconnect_request; K_disconnect_reply; K_discovery_request; K_discovery_reply;
   K_discovery_reply_v1_3; K_implicit_update; K_call; K_call_v2; K_reply; K_reply_v2; K_prepare_request; K_prepare_reply; K_commit_request;
   K_commit_reply; K_rollback_request; K_rollback_reply; K_enqueue_request; K_enqueue_reply; K_enqueue_reply_v1_2; K_dequeue_request;
   K_dequeue_reply; K_dequeue_reply_v1_2; K_conv_request; K_conv_request_v2; K_conv_reply; K_conv_send; K_conv_disconnect].
Scheme Equality for kind.

(* what is written, with the names of the members *)
Inductive shape :=
| Leaf (t : ty)
| Group (l : list (string * shape))
| Each (s : shape)
| Maybe (s : shape).
Fixpoint type_of (s : shape) : ty :=
  match s with
  | Leaf t => t
  | Group l => (fix all (l : list (string * shape)) : ty := match l with [] => T_unit | (_, s) :: r => T_pair (type_of s) (all r) end) l
  | Each s => T_sequence (type_of s)
  | Maybe s => T_optional (type_of s)
  end.

Local Open Scope string_scope.
Definition uuid : shape := Leaf (T_fixed 16).
Definition text : shape := Leaf T_bytes.
Definition size : shape := Leaf (T_num T_size).
Definition time : shape := Leaf (T_duration 1).                                       (* platform::time::unit: nanoseconds *)
(* common/domain.h: Identity *)
Definition identity : shape := Group [("id", uuid); ("name", text)].
(* message.h:606-610 *)
Definition parent : shape := Group [("span", Leaf (T_fixed 8)); ("service", text)].
(* common/buffer/type.h: Payload *)
Definition buffer : shape := Group [("type", text); ("data", text)].
(* message.h:673-680 *)
Definition service : shape :=
  Group [("name", text); ("category", text); ("transaction", Leaf (T_num T_short)); ("timeout.duration", time); ("hops", size)].
(* message.h:639-645, discovery.h:72-96 *)
Definition queue : shape :=
  Group [("name", text); ("retry", Group [("count", size); ("delay", time)]); ("enable", Group [("enqueue", Leaf (T_num T_bool)); ("dequeue", Leaf (T_num T_bool))])].
(* message.h:647-651 *)
Definition queue_v1_3 : shape := Group [("name", text); ("retries", size)].
(* queue/common/ipc/message.h: Attributes, Payload *)
Definition attributes : shape := Group [("properties", text); ("reply", text); ("available", time)].
(* queue/common/ipc/message.h:439-455, 514-531 *)
Definition dequeued : shape := Group [("id", uuid); ("attributes", attributes); ("payload", buffer); ("redelivered", size); ("timestamp", time)].
Definition enqueued : shape := Group [("id", uuid); ("attributes", attributes); ("payload", buffer)].
(* message.h:792-808 *)
Definition resource_request : list (string * shape) := [("execution", uuid); ("xid", Leaf T_xid); ("resource", Leaf (T_num T_int)); ("flags", Leaf (T_num T_long))].
Definition resource_reply : list (string * shape) := [("execution", uuid); ("xid", Leaf T_xid); ("resource", Leaf (T_num T_int)); ("state", Leaf (T_num T_int))].
(* message.h:612-884, each member as CASUAL_CUSTOMIZATION_POINT_SERIALIZE names it *)
Definition layout (k : kind) : list (string * shape) :=
  match k with
  | K_connect_request => [("execution", uuid); ("domain", identity); ("protocol.versions", Each size)]
  | K_connect_reply => [("execution", uuid); ("domain", identity); ("protocol.version", size)]
  | K_disconnect_request | K_disconnect_reply | K_conv_disconnect => [("execution", uuid)]
  | K_discovery_request => [("execution", uuid); ("domain", identity); ("content.services", Each text); ("content.queues", Each text)]
  | K_discovery_reply => [("execution", uuid); ("domain", identity); ("content.services", Each service); ("content.queues", Each queue)]
  | K_discovery_reply_v1_3 => [("execution", uuid); ("domain", identity); ("content.services", Each service); ("content.queues", Each queue_v1_3)]
  | K_implicit_update => [("execution", uuid); ("domains", Each identity)]
  | K_call => [("execution", uuid); ("service.name", text); ("deadline.remaining", Maybe time); ("parent", parent); ("xid", Leaf T_xid); ("flags", Leaf (T_num T_long)); ("buffer", buffer)]
  | K_call_v2 => [("execution", uuid); ("service.name", text); ("service.timeout.duration", time); ("parent", text); ("xid", Leaf T_xid); ("flags", Leaf (T_num T_long)); ("buffer", buffer)]
  | K_reply => [("execution", uuid); ("code.result", Leaf (T_num T_int)); ("code.user", Leaf (T_num T_long)); ("transaction_state", Leaf (T_num T_uchar)); ("buffer", buffer)]
  | K_reply_v2 => [("execution", uuid); ("code.result", Leaf (T_num T_int)); ("code.user", Leaf (T_num T_long)); ("transaction.xid", Leaf T_xid); ("transaction.state", Leaf (T_num T_uchar)); ("buffer", buffer)]
  | K_prepare_request | K_commit_request | K_rollback_request => resource_request
  | K_prepare_reply | K_commit_reply | K_rollback_reply => resource_reply
  | K_enqueue_request => [("execution", uuid); ("name", text); ("xid", Leaf T_xid); ("message", enqueued)]
  | K_enqueue_reply => [("execution", uuid); ("id", uuid); ("code", Leaf (T_num T_int))]
  | K_enqueue_reply_v1_2 => [("execution", uuid); ("id", uuid)]
  | K_dequeue_request => [("execution", uuid); ("name", text); ("xid", Leaf T_xid); ("selector", Group [("properties", text); ("id", uuid)]); ("block", Leaf (T_num T_bool))]
  | K_dequeue_reply => [("execution", uuid); ("message", Maybe dequeued); ("code", Leaf (T_num T_int))]
  | K_dequeue_reply_v1_2 => [("execution", uuid); ("message", Each dequeued)]
  | K_conv_request => [("execution", uuid); ("service.name", text); ("deadline.remaining", Maybe time); ("parent", parent); ("xid", Leaf T_xid); ("duplex", Leaf (T_num T_short)); ("buffer", buffer)]
  | K_conv_request_v2 => [("execution", uuid); ("service.name", text); ("service.timeout.duration", time); ("parent", text); ("xid", Leaf T_xid); ("duplex", Leaf (T_num T_short)); ("buffer", buffer)]
  | K_conv_reply => [("execution", uuid); ("code.result", Leaf (T_num T_int))]
  | K_conv_send => [("execution", uuid); ("duplex", Leaf (T_num T_short)); ("code.result", Leaf (T_num T_int)); ("code.user", Leaf (T_num T_long)); ("buffer", buffer)]
  end.
Definition message_type (k : kind) : ty := type_of (Group (layout k)).
Local Close Scope string_scope.
(* the number that is sent as the type, common/include/common/message/type.h:109-128, 195-200, 229-234, 306-315 *)
Definition number (k : kind) : Z :=
  match k with
  | K_call_v2 => 3100 | K_reply_v2 => 3101 | K_call => 3102 | K_reply => 3103
  | K_conv_request_v2 => 3210 | K_conv_reply => 3211 | K_conv_send => 3212 | K_conv_disconnect => 3213 | K_conv_request => 3220
  | K_prepare_request => 5201 | K_prepare_reply => 5202 | K_commit_request => 5203 | K_commit_reply => 5204 | K_rollback_request => 5205 | K_rollback_reply => 5206
  | K_enqueue_request => 6100 | K_enqueue_reply_v1_2 => 6101 | K_enqueue_reply => 6102
  | K_dequeue_request => 6200 | K_dequeue_reply_v1_2 => 6201 | K_dequeue_reply => 6202
  | K_connect_request => 7200 | K_connect_reply => 7201 | K_disconnect_request => 7202 | K_disconnect_reply => 7203
  | K_discovery_request => 7300 | K_discovery_reply_v1_3 => 7301 | K_implicit_update => 7302 | K_discovery_reply => 7311
  end.
(* the dispatch on the type of a received message finds the handler for its type, common/message/dispatch.h *)
Definition kind_of (n : Z) : option kind := find (fun k => number k =? n) kinds.

(* ---------------------------------------------------------------- versions *)
(* version.h:20-29: the versions are 1000 for 1.0 and so on; 0 is invalid *)
Definition current : Z := 1004.
(* version.h:46 *)
Definition versions : list Z := [1004; 1003; 1002; 1001; 1000].
(* protocol.h:19-57, 69-119: the first and the last version that has the message *)
Definition version_range (k : kind) : Z * Z :=
  match k with
  | K_disconnect_request | K_disconnect_reply => (1001, current)
  | K_implicit_update => (1002, current)
  | K_discovery_reply_v1_3 => (1000, 1003)
  | K_discovery_reply => (1004, current)
  | K_enqueue_reply | K_dequeue_reply | K_call | K_reply | K_conv_request => (1003, current)
  | K_enqueue_reply_v1_2 | K_dequeue_reply_v1_2 | K_conv_request_v2 | K_call_v2 | K_reply_v2 => (1000, 1002)
  | _ => (1000, current)
  end.
Definition compatible (k : kind) (v : Z) : bool := (fst (version_range k) <=? v) && (v <=? snd (version_range k)).

(* ---------------------------------------------------------------- negotiation *)
(* protocol_versions, connect/main.cpp: from the version of the domain (version.cpp:22, one of the versions) to the oldest *)
Fixpoint find_from (v : Z) (l : list Z) : list Z := match l with [] => [] | x :: r => if x =? v then l else find_from v r end.
Definition own_versions (own : Z) : list Z := find_from own versions.
(* algorithm::find_first_of, algorithm.h:885 *)
Definition first_of_both (l other : list Z) : option Z := find (fun x => existsb (Z.eqb x) other) l.
(* what becomes of one end: Connected is sent to the group with the version, or code::casual::invalid_version is raised *)
Inductive connected := Connected (v : Z) | Invalid_version.
Definition check (own v : Z) : connected := if existsb (Z.eqb v) (own_versions own) then Connected v else Invalid_version.
(* run::in: the version in the reply, and what becomes of the inbound; an unset version is 0 *)
Definition in_reply (own : Z) (requested : list Z) : Z := match first_of_both (own_versions own) requested with Some v => v | None => 0 end.
Definition in_end (own : Z) (requested : list Z) : connected := check own (in_reply own requested).
(* run::out: the versions in the request, and what becomes of the outbound with the reply *)
Definition out_request (own : Z) : list Z := own_versions own.
Definition out_end (own replied : Z) : connected := check own replied.

(* ---------------------------------------------------------------- the messages with several versions *)
(* the members of a message. Those that aren't sent between domains: requested, header, pending (service.h:548-576), owner of the trid *)
Record xid := { x_format : Z; x_gtrid : Z; x_bqual : Z; x_data : list Z }.
Definition null_xid : xid := {| x_format := -1; x_gtrid := 0; x_bqual := 0; x_data := [] |}.
Record payload := { p_type : list Z; p_data : list Z }.
(* service.h:548-620 *)
Record call := {
  c_execution : list Z; c_service : list Z; c_remaining : option Z; c_span : list Z; c_parent : list Z; c_trid : xid; c_flags : Z; c_buffer : payload;
  c_requested : option (list Z); c_header : list (list Z * list Z); c_pending : Z }.
(* service.h:485-527 *)
Record call_v2 := {
  d_execution : list Z; d_service : list Z; d_timeout : Z; d_parent : list Z; d_trid : xid; d_flags : Z; d_buffer : payload;
  d_header : list (list Z * list Z); d_pending : Z }.
(* service.h:615-630, 531-544 *)
Record reply := { r_execution : list Z; r_result : Z; r_user : Z; r_state : Z; r_buffer : payload }.
Record reply_v2 := { s_execution : list Z; s_result : Z; s_user : Z; s_trid : xid; s_state : Z; s_buffer : payload }.
(* conversation.h: connect::callee::Request, connect::v1_2::callee::Request *)
Record conv := {
  v_execution : list Z; v_service : list Z; v_remaining : option Z; v_span : list Z; v_parent : list Z; v_trid : xid; v_duplex : Z; v_buffer : payload;
  v_requested : option (list Z); v_header : list (list Z * list Z); v_pending : Z }.
Record conv_v2 := {
  w_execution : list Z; w_service : list Z; w_timeout : Z; w_parent : list Z; w_trid : xid; w_duplex : Z; w_buffer : payload;
  w_header : list (list Z * list Z); w_pending : Z }.
(* queue/common/ipc/message.h *)
Record enqueue_reply := { e_execution : list Z; e_id : list Z; e_code : Z }.
Record enqueue_reply_v1_2 := { f_execution : list Z; f_id : list Z }.
Record queue_message := {
  q_id : list Z; q_properties : list Z; q_reply : list Z; q_available : Z; q_payload : payload; q_redelivered : Z; q_timestamp : Z }.
Record dequeue_reply := { g_execution : list Z; g_message : option queue_message; g_code : Z }.
Record dequeue_reply_v1_2 := { h_execution : list Z; h_message : list queue_message }.
(* domain/message/discovery.h; service.h: concurrent::advertise::Service *)
Record service_info := { i_name : list Z; i_category : list Z; i_transaction : Z; i_timeout : Z; i_hops : Z; i_visibility : Z }.
Record queue_info := { u_name : list Z; u_count : Z; u_delay : Z; u_enqueue : bool; u_dequeue : bool }.
Record queue_info_v1_3 := { u3_name : list Z; u3_retries : Z }.
Record discovery_reply := { y_execution : list Z; y_id : list Z; y_name : list Z; y_services : list service_info; y_queues : list queue_info }.
Record discovery_reply_v1_3 := { z_execution : list Z; z_id : list Z; z_name : list Z; z_services : list service_info; z_queues : list queue_info_v1_3 }.

(* transform.h:24-54 *)
Definition to_call_v2 (m : call) : call_v2 :=
  {| d_execution := c_execution m; d_service := c_service m; d_timeout := match c_remaining m with Some t => t | None => 0 end;
     d_parent := c_parent m; d_trid := c_trid m; d_flags := c_flags m; d_buffer := c_buffer m; d_header := []; d_pending := c_pending m |}.
Definition nil_span : list Z := repeat 0 8.
Definition from_call_v2 (m : call_v2) : call :=
  {| c_execution := d_execution m; c_service := d_service m; c_remaining := if 0 <? d_timeout m then Some (d_timeout m) else None;
     c_span := nil_span; c_parent := d_parent m; c_trid := d_trid m; c_flags := d_flags m; c_buffer := d_buffer m;
     c_requested := None; c_header := []; c_pending := d_pending m |}.
(* transform.h:56-78 *)
Definition to_reply_v2 (m : reply) : reply_v2 :=
  {| s_execution := r_execution m; s_result := r_result m; s_user := r_user m; s_trid := null_xid; s_state := r_state m; s_buffer := r_buffer m |}.
Definition from_reply_v2 (m : reply_v2) : reply :=
  {| r_execution := s_execution m; r_result := s_result m; r_user := s_user m; r_state := s_state m; r_buffer := s_buffer m |}.
(* transform.h:80-110: the duplex isn't copied, the default is duplex::Type::send *)
Definition to_conv_v2 (m : conv) : conv_v2 :=
  {| w_execution := v_execution m; w_service := v_service m; w_timeout := match v_remaining m with Some t => t | None => 0 end;
     w_parent := v_parent m; w_trid := v_trid m; w_duplex := 0; w_buffer := v_buffer m; w_header := []; w_pending := v_pending m |}.
Definition from_conv_v2 (m : conv_v2) : conv :=
  {| v_execution := w_execution m; v_service := w_service m; v_remaining := if 0 <? w_timeout m then Some (w_timeout m) else None;
     v_span := nil_span; v_parent := w_parent m; v_trid := w_trid m; v_duplex := 0; v_buffer := w_buffer m;
     v_requested := None; v_header := []; v_pending := w_pending m |}.
(* transform.h:112-131; code::queue::ok = 0, no_queue = 10, no_message = 1; a nil id is all zeros *)
Definition nil_uuid : list Z := repeat 0 16.
Definition is_nil (id : list Z) : bool := forallb (Z.eqb 0) id.
Definition to_enqueue_reply_v1_2 (m : enqueue_reply) : enqueue_reply_v1_2 := {| f_execution := e_execution m; f_id := e_id m |}.
Definition from_enqueue_reply_v1_2 (m : enqueue_reply_v1_2) : enqueue_reply :=
  {| e_execution := f_execution m; e_id := f_id m; e_code := if is_nil (f_id m) then 10 else 0 |}.
(* transform.h:134-158 *)
Definition to_dequeue_reply_v1_2 (m : dequeue_reply) : dequeue_reply_v1_2 :=
  {| h_execution := g_execution m; h_message := match g_message m with Some q => [q] | None => [] end |}.
Definition from_dequeue_reply_v1_2 (m : dequeue_reply_v1_2) : dequeue_reply :=
  match h_message m with
  | q :: _ => {| g_execution := h_execution m; g_message := Some q; g_code := 0 |}
  | [] => {| g_execution := h_execution m; g_message := None; g_code := 1 |}
  end.
(* transform.h:160-195 *)
Definition to_discovery_reply_v1_3 (m : discovery_reply) : discovery_reply_v1_3 :=
  {| z_execution := y_execution m; z_id := y_id m; z_name := y_name m; z_services := y_services m;
     z_queues := map (fun q => {| u3_name := u_name q; u3_retries := u_count q |}) (y_queues m) |}.
Definition from_discovery_reply_v1_3 (m : discovery_reply_v1_3) : discovery_reply :=
  {| y_execution := z_execution m; y_id := z_id m; y_name := z_name m; y_services := z_services m;
     y_queues := map (fun q => {| u_name := u3_name q; u_count := u3_retries q; u_delay := 0; u_enqueue := true; u_dequeue := true |}) (z_queues m) |}.

(* ---------------------------------------------------------------- messages as values of their layout, and back *)
Definition xid_val (x : xid) : val := if x_format x =? -1 then V_xid (-1) 0 0 [] else V_xid (x_format x) (x_gtrid x) (x_bqual x) (x_data x).
Definition payload_val (p : payload) : val := values [V_bytes (p_type p); V_bytes (p_data p)].
Definition option_val (o : option Z) : val := match o with Some t => V_some (V_num t) | None => V_none end.
Definition bool_val (b : bool) : val := V_num (if b then 1 else 0).
Definition call_val (m : call) : val :=
  values [V_bytes (c_execution m); V_bytes (c_service m); option_val (c_remaining m); values [V_bytes (c_span m); V_bytes (c_parent m)];
          xid_val (c_trid m); V_num (c_flags m); payload_val (c_buffer m)].
Definition call_v2_val (m : call_v2) : val :=
  values [V_bytes (d_execution m); V_bytes (d_service m); V_num (d_timeout m); V_bytes (d_parent m); xid_val (d_trid m); V_num (d_flags m); payload_val (d_buffer m)].
Definition reply_val (m : reply) : val := values [V_bytes (r_execution m); V_num (r_result m); V_num (r_user m); V_num (r_state m); payload_val (r_buffer m)].
Definition reply_v2_val (m : reply_v2) : val :=
  values [V_bytes (s_execution m); V_num (s_result m); V_num (s_user m); xid_val (s_trid m); V_num (s_state m); payload_val (s_buffer m)].
Definition conv_val (m : conv) : val :=
  values [V_bytes (v_execution m); V_bytes (v_service m); option_val (v_remaining m); values [V_bytes (v_span m); V_bytes (v_parent m)];
          xid_val (v_trid m); V_num (v_duplex m); payload_val (v_buffer m)].
Definition conv_v2_val (m : conv_v2) : val :=
  values [V_bytes (w_execution m); V_bytes (w_service m); V_num (w_timeout m); V_bytes (w_parent m); xid_val (w_trid m); V_num (w_duplex m); payload_val (w_buffer m)].
Definition enqueue_reply_val (m : enqueue_reply) : val := values [V_bytes (e_execution m); V_bytes (e_id m); V_num (e_code m)].
Definition enqueue_reply_v1_2_val (m : enqueue_reply_v1_2) : val := values [V_bytes (f_execution m); V_bytes (f_id m)].
Definition queue_message_val (q : queue_message) : val :=
  values [V_bytes (q_id q); values [V_bytes (q_properties q); V_bytes (q_reply q); V_num (q_available q)]; payload_val (q_payload q); V_num (q_redelivered q); V_num (q_timestamp q)].
Definition dequeue_reply_val (m : dequeue_reply) : val :=
  values [V_bytes (g_execution m); match g_message m with Some q => V_some (queue_message_val q) | None => V_none end; V_num (g_code m)].
Definition dequeue_reply_v1_2_val (m : dequeue_reply_v1_2) : val := values [V_bytes (h_execution m); V_list (map queue_message_val (h_message m))].
Definition service_val (s : service_info) : val :=
  values [V_bytes (i_name s); V_bytes (i_category s); V_num (i_transaction s); V_num (i_timeout s); V_num (i_hops s)].
Definition queue_val (q : queue_info) : val :=
  values [V_bytes (u_name q); values [V_num (u_count q); V_num (u_delay q)]; values [bool_val (u_enqueue q); bool_val (u_dequeue q)]].
Definition queue_v1_3_val (q : queue_info_v1_3) : val := values [V_bytes (u3_name q); V_num (u3_retries q)].
Definition discovery_reply_val (m : discovery_reply) : val :=
  values [V_bytes (y_execution m); values [V_bytes (y_id m); V_bytes (y_name m)]; V_list (map service_val (y_services m)); V_list (map queue_val (y_queues m))].
Definition discovery_reply_v1_3_val (m : discovery_reply_v1_3) : val :=
  values [V_bytes (z_execution m); values [V_bytes (z_id m); V_bytes (z_name m)]; V_list (map service_val (z_services m)); V_list (map queue_v1_3_val (z_queues m))].

(* reading to a new object gives the members that are sent; the others have their default values *)
Definition val_xid (v : val) : option xid := match v with V_xid f g b d => Some {| x_format := f; x_gtrid := g; x_bqual := b; x_data := d |} | _ => None end.
Definition val_payload (v : val) : option payload := match v with V_pair (V_bytes t) (V_pair (V_bytes d) V_unit) => Some {| p_type := t; p_data := d |} | _ => None end.
Definition val_option (v : val) : option (option Z) := match v with V_none => Some None | V_some (V_num t) => Some (Some t) | _ => None end.
Definition val_bool (v : val) : option bool := match v with V_num n => Some (negb (n =? 0)) | _ => None end.
Definition and_then {A B} (o : option A) (f : A -> option B) : option B := match o with Some a => f a | None => None end.
Fixpoint all_of {A} (f : val -> option A) (l : list val) : option (list A) :=
  match l with [] => Some [] | v :: r => and_then (f v) (fun a => and_then (all_of f r) (fun s => Some (a :: s))) end.
Definition val_call (v : val) : option call :=
  match v with
  | V_pair (V_bytes ex) (V_pair (V_bytes se) (V_pair re (V_pair (V_pair (V_bytes sp) (V_pair (V_bytes pa) V_unit)) (V_pair xi (V_pair (V_num fl) (V_pair bu V_unit)))))) =>
      and_then (val_option re) (fun re => and_then (val_xid xi) (fun xi => and_then (val_payload bu) (fun bu =>
        Some {| c_execution := ex; c_service := se; c_remaining := re; c_span := sp; c_parent := pa; c_trid := xi; c_flags := fl; c_buffer := bu;
                c_requested := None; c_header := []; c_pending := 0 |})))
  | _ => None
  end.
Definition val_call_v2 (v : val) : option call_v2 :=
  match v with
  | V_pair (V_bytes ex) (V_pair (V_bytes se) (V_pair (V_num ti) (V_pair (V_bytes pa) (V_pair xi (V_pair (V_num fl) (V_pair bu V_unit)))))) =>
      and_then (val_xid xi) (fun xi => and_then (val_payload bu) (fun bu =>
        Some {| d_execution := ex; d_service := se; d_timeout := ti; d_parent := pa; d_trid := xi; d_flags := fl; d_buffer := bu; d_header := []; d_pending := 0 |}))
  | _ => None
  end.
Definition val_reply (v : val) : option reply :=
  match v with
  | V_pair (V_bytes ex) (V_pair (V_num re) (V_pair (V_num us) (V_pair (V_num st) (V_pair bu V_unit)))) =>
      and_then (val_payload bu) (fun bu => Some {| r_execution := ex; r_result := re; r_user := us; r_state := st; r_buffer := bu |})
  | _ => None
  end.
Definition val_reply_v2 (v : val) : option reply_v2 :=
  match v with
  | V_pair (V_bytes ex) (V_pair (V_num re) (V_pair (V_num us) (V_pair xi (V_pair (V_num st) (V_pair bu V_unit))))) =>
      and_then (val_xid xi) (fun xi => and_then (val_payload bu) (fun bu => Some {| s_execution := ex; s_result := re; s_user := us; s_trid := xi; s_state := st; s_buffer := bu |}))
  | _ => None
  end.
Definition val_conv (v : val) : option conv :=
  match v with
  | V_pair (V_bytes ex) (V_pair (V_bytes se) (V_pair re (V_pair (V_pair (V_bytes sp) (V_pair (V_bytes pa) V_unit)) (V_pair xi (V_pair (V_num du) (V_pair bu V_unit)))))) =>
      and_then (val_option re) (fun re => and_then (val_xid xi) (fun xi => and_then (val_payload bu) (fun bu =>
        Some {| v_execution := ex; v_service := se; v_remaining := re; v_span := sp; v_parent := pa; v_trid := xi; v_duplex := du; v_buffer := bu;
                v_requested := None; v_header := []; v_pending := 0 |})))
  | _ => None
  end.
Definition val_conv_v2 (v : val) : option conv_v2 :=
  match v with
  | V_pair (V_bytes ex) (V_pair (V_bytes se) (V_pair (V_num ti) (V_pair (V_bytes pa) (V_pair xi (V_pair (V_num du) (V_pair bu V_unit)))))) =>
      and_then (val_xid xi) (fun xi => and_then (val_payload bu) (fun bu =>
        Some {| w_execution := ex; w_service := se; w_timeout := ti; w_parent := pa; w_trid := xi; w_duplex := du; w_buffer := bu; w_header := []; w_pending := 0 |}))
  | _ => None
  end.
Definition val_enqueue_reply (v : val) : option enqueue_reply :=
  match v with V_pair (V_bytes ex) (V_pair (V_bytes id) (V_pair (V_num co) V_unit)) => Some {| e_execution := ex; e_id := id; e_code := co |} | _ => None end.
Definition val_enqueue_reply_v1_2 (v : val) : option enqueue_reply_v1_2 :=
  match v with V_pair (V_bytes ex) (V_pair (V_bytes id) V_unit) => Some {| f_execution := ex; f_id := id |} | _ => None end.
Definition val_queue_message (v : val) : option queue_message :=
  match v with
  | V_pair (V_bytes id) (V_pair (V_pair (V_bytes pr) (V_pair (V_bytes re) (V_pair (V_num av) V_unit))) (V_pair pa (V_pair (V_num rd) (V_pair (V_num ti) V_unit)))) =>
      and_then (val_payload pa) (fun pa =>
        Some {| q_id := id; q_properties := pr; q_reply := re; q_available := av; q_payload := pa; q_redelivered := rd; q_timestamp := ti |})
  | _ => None
  end.
Definition val_dequeue_reply (v : val) : option dequeue_reply :=
  match v with
  | V_pair (V_bytes ex) (V_pair me (V_pair (V_num co) V_unit)) =>
      and_then (match me with V_none => Some None | V_some q => and_then (val_queue_message q) (fun q => Some (Some q)) | _ => None end)
        (fun me => Some {| g_execution := ex; g_message := me; g_code := co |})
  | _ => None
  end.
Definition val_dequeue_reply_v1_2 (v : val) : option dequeue_reply_v1_2 :=
  match v with
  | V_pair (V_bytes ex) (V_pair (V_list l) V_unit) => and_then (all_of val_queue_message l) (fun l => Some {| h_execution := ex; h_message := l |})
  | _ => None
  end.
(* the visibility isn't sent: visibility::Type::discoverable, 1 *)
Definition val_service (v : val) : option service_info :=
  match v with
  | V_pair (V_bytes na) (V_pair (V_bytes ca) (V_pair (V_num tr) (V_pair (V_num ti) (V_pair (V_num ho) V_unit)))) =>
      Some {| i_name := na; i_category := ca; i_transaction := tr; i_timeout := ti; i_hops := ho; i_visibility := 1 |}
  | _ => None
  end.
Definition val_queue (v : val) : option queue_info :=
  match v with
  | V_pair (V_bytes na) (V_pair (V_pair (V_num co) (V_pair (V_num de) V_unit)) (V_pair (V_pair en (V_pair dq V_unit)) V_unit)) =>
      and_then (val_bool en) (fun en => and_then (val_bool dq) (fun dq => Some {| u_name := na; u_count := co; u_delay := de; u_enqueue := en; u_dequeue := dq |}))
  | _ => None
  end.
Definition val_queue_v1_3 (v : val) : option queue_info_v1_3 :=
  match v with V_pair (V_bytes na) (V_pair (V_num re) V_unit) => Some {| u3_name := na; u3_retries := re |} | _ => None end.
Definition val_discovery_reply (v : val) : option discovery_reply :=
  match v with
  | V_pair (V_bytes ex) (V_pair (V_pair (V_bytes id) (V_pair (V_bytes na) V_unit)) (V_pair (V_list ss) (V_pair (V_list qs) V_unit))) =>
      and_then (all_of val_service ss) (fun ss => and_then (all_of val_queue qs) (fun qs =>
        Some {| y_execution := ex; y_id := id; y_name := na; y_services := ss; y_queues := qs |}))
  | _ => None
  end.
Definition val_discovery_reply_v1_3 (v : val) : option discovery_reply_v1_3 :=
  match v with
  | V_pair (V_bytes ex) (V_pair (V_pair (V_bytes id) (V_pair (V_bytes na) V_unit)) (V_pair (V_list ss) (V_pair (V_list qs) V_unit))) =>
      and_then (all_of val_service ss) (fun ss => and_then (all_of val_queue_v1_3 qs) (fun qs =>
        Some {| z_execution := ex; z_id := id; z_name := na; z_services := ss; z_queues := qs |}))
  | _ => None
  end.

(* ---------------------------------------------------------------- sending and receiving *)
(* a message inside of the domain: those with several versions, and the others as the value of their layout *)
Inductive message :=
| Call (m : call) | Reply (m : reply) | Conv (m : conv) | Enqueue_reply (m : enqueue_reply) | Dequeue_reply (m : dequeue_reply) | Discovery_reply (m : discovery_reply)
| Other (k : kind) (v : val).
(* which message is sent on a connection with a version: outbound/handle.cpp:265-278, 366-369, inbound/handle.cpp:127-130, 147-150, 172-175,
   inbound/task/create.cpp:286-289. An implicit update is only asked for with a version that has it (inbound/handle.cpp:464), a disconnect is
   only sent with a version that has it (inbound/handle.cpp:642), and its reply only then *)
Definition outgoing (v : Z) (m : message) : option (kind * val) :=
  match m with
  | Call m => Some (if compatible K_call v then (K_call, call_val m) else (K_call_v2, call_v2_val (to_call_v2 m)))
  | Reply m => Some (if compatible K_reply v then (K_reply, reply_val m) else (K_reply_v2, reply_v2_val (to_reply_v2 m)))
  | Conv m => Some (if compatible K_conv_request v then (K_conv_request, conv_val m) else (K_conv_request_v2, conv_v2_val (to_conv_v2 m)))
  | Enqueue_reply m => Some (if compatible K_enqueue_reply v then (K_enqueue_reply, enqueue_reply_val m) else (K_enqueue_reply_v1_2, enqueue_reply_v1_2_val (to_enqueue_reply_v1_2 m)))
  | Dequeue_reply m => Some (if compatible K_dequeue_reply v then (K_dequeue_reply, dequeue_reply_val m) else (K_dequeue_reply_v1_2, dequeue_reply_v1_2_val (to_dequeue_reply_v1_2 m)))
  | Discovery_reply m => Some (if compatible K_discovery_reply v then (K_discovery_reply, discovery_reply_val m) else (K_discovery_reply_v1_3, discovery_reply_v1_3_val (to_discovery_reply_v1_3 m)))
  | Other ((K_disconnect_request | K_disconnect_reply | K_implicit_update) as k) x => if compatible k v then Some (k, x) else None
  | Other k x => Some (k, x)
  end.
(* what is sent: the type and the payload *)
Definition send (h : host) (v : Z) (m : message) : option (Z * list Z) :=
  match outgoing v m with Some (k, x) => Some (number k, write (Network h) (message_type k) x) | None => None end.
(* what a received message is converted to before it's handled: outbound/handle.cpp:573, 608, 628, 742, inbound/handle.cpp:289, 322 *)
Definition incoming (k : kind) (x : val) : option message :=
  match k with
  | K_call => and_then (val_call x) (fun m => Some (Call m))
  | K_call_v2 => and_then (val_call_v2 x) (fun m => Some (Call (from_call_v2 m)))
  | K_reply => and_then (val_reply x) (fun m => Some (Reply m))
  | K_reply_v2 => and_then (val_reply_v2 x) (fun m => Some (Reply (from_reply_v2 m)))
  | K_conv_request => and_then (val_conv x) (fun m => Some (Conv m))
  | K_conv_request_v2 => and_then (val_conv_v2 x) (fun m => Some (Conv (from_conv_v2 m)))
  | K_enqueue_reply => and_then (val_enqueue_reply x) (fun m => Some (Enqueue_reply m))
  | K_enqueue_reply_v1_2 => and_then (val_enqueue_reply_v1_2 x) (fun m => Some (Enqueue_reply (from_enqueue_reply_v1_2 m)))
  | K_dequeue_reply => and_then (val_dequeue_reply x) (fun m => Some (Dequeue_reply m))
  | K_dequeue_reply_v1_2 => and_then (val_dequeue_reply_v1_2 x) (fun m => Some (Dequeue_reply (from_dequeue_reply_v1_2 m)))
  | K_discovery_reply => and_then (val_discovery_reply x) (fun m => Some (Discovery_reply m))
  | K_discovery_reply_v1_3 => and_then (val_discovery_reply_v1_3 x) (fun m => Some (Discovery_reply (from_discovery_reply_v1_3 m)))
  | k => Some (Other k x)
  end.
Definition receive (h : host) (p : Z * list Z) : option message :=
  match kind_of (fst p) with
  | Some k => match read (Network h) (message_type k) (default (message_type k)) (snd p) with Read x _ => incoming k x | _ => None end
  | None => None
  end.

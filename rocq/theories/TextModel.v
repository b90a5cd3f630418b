(* Binary to text: middleware/common/{include/common/transcode.h,source/{transcode,uuid}.cpp,source/transaction/{global,id}.cpp}, and the http
   payloads, middleware/http/source/common.cpp.
   The base64 codec itself is a library, cppcodec::base64_rfc4648: it is modelled by the RFC (rfc4648 section 4). Bytes and characters are
   numbers. *)
From Coq Require Import ZArith List Bool String Ascii.
From Verif Require Import Bytes BoModel.
Import ListNotations.
Local Open Scope Z_scope.

(* ---------------------------------------------------------------- hex *)
(* the lambda in hex::detail::encode, transcode.h:173-178 *)
Definition hex_char (v : Z) : Z := if v <? 10 then v + 48 else v + 87.
(* hex::detail::encode, transcode.h:170-186: std::to_integer< std::int8_t> is signed *)
Definition hex_encode1 (b : Z) : list Z :=
  let v := to_signed 1 b in [hex_char (Z.shiftr (Z.land 240 v) 4); hex_char (Z.land 15 v)].
Definition hex_encode (d : list Z) : list Z := flat_map hex_encode1 d.
(* the lambda in hex::detail::decode, transcode.h:193-198 *)
Definition hex_value (c : Z) : Z := if 87 <=? c then c - 87 else c - 48.
(* hex::detail::decode, transcode.h:188-208; None: an odd number of characters, an assert that isn't compiled in a release build, where the
   character behind the end is read *)
Fixpoint hex_decode (s : list Z) : option (list Z) :=
  match s with
  | [] => Some []
  | [_] => None
  | a :: b :: r => match hex_decode r with
                   | Some d => Some (Z.shiftl (Z.land 15 (hex_value a)) 4 + Z.land 15 (hex_value b) :: d)
                   | None => None
                   end
  end.

(* ---------------------------------------------------------------- base64 *)
(* rfc 4648, table 1 *)
Definition b64_char (v : Z) : Z :=
  if v <? 26 then v + 65 else if v <? 52 then v + 71 else if v <? 62 then v - 4 else if v =? 62 then 43 else 47.
Definition b64_value (c : Z) : option Z :=
  if (65 <=? c) && (c <=? 90) then Some (c - 65)
  else if (97 <=? c) && (c <=? 122) then Some (c - 71)
  else if (48 <=? c) && (c <=? 57) then Some (c + 4)
  else if c =? 43 then Some 62 else if c =? 47 then Some 63 else None.
Definition pad : Z := 61.
(* rfc 4648, section 4 *)
Fixpoint rfc_encode (d : list Z) : list Z :=
  match d with
  | [] => []
  | [a] => [b64_char (a / 4); b64_char (a mod 4 * 16); pad; pad]
  | [a; b] => [b64_char (a / 4); b64_char (a mod 4 * 16 + b / 16); b64_char (b mod 16 * 4); pad]
  | a :: b :: c :: r => b64_char (a / 4) :: b64_char (a mod 4 * 16 + b / 16) :: b64_char (b mod 16 * 4 + c / 64) :: b64_char (c mod 64) :: rfc_encode r
  end.
(* cppcodec: padding is required, and only at the end; a zero character ends the input; anything else that isn't in the alphabet is an error *)
Fixpoint rfc_decode (s : list Z) : option (list Z) :=
  match s with
  | [] => Some []
  | x0 :: r0 =>
      if x0 =? 0 then Some []
      else
        match r0 with
        | x1 :: x2 :: x3 :: r =>
            match b64_value x0, b64_value x1 with
            | Some a, Some b =>
                let last := match r with [] => true | e :: _ => e =? 0 end in
                if x2 =? pad then (if (x3 =? pad) && last then Some [a * 4 + b / 16] else None)
                else match b64_value x2 with
                     | Some c =>
                         if x3 =? pad then (if last then Some [a * 4 + b / 16; b mod 16 * 16 + c / 4] else None)
                         else match b64_value x3 with
                              | Some d => match rfc_decode r with
                                          | Some l => Some (a * 4 + b / 16 :: b mod 16 * 16 + c / 4 :: c mod 4 * 64 + d :: l)
                                          | None => None
                                          end
                              | None => None
                              end
                     | None => None
                     end
            | _, _ => None
            end
        | _ => None
        end
  end.
(* the results of the casual functions: Abort, the process is aborted since the target is too small; Failed, failed_transcoding is raised *)
Inductive coded := Coded (d : list Z) | Abort | Failed.
Definition into (size : Z) (r : option (list Z)) : coded :=
  match r with
  | None => Failed
  | Some d => if size <? Z.of_nat (List.length d) then Abort else Coded d
  end.
(* base64::capacity::encoded, transcode.h:43-46, and base64::encode, transcode.h:51-60 *)
Definition capacity (n : Z) : Z := (n + 2) / 3 * 4.
Definition base64_encode (d : list Z) : coded := into (capacity (Z.of_nat (List.length d))) (Some (rfc_encode d)).
(* base64::decode, transcode.cpp:75-82: the result has room for three bytes for every four characters *)
Definition base64_decode (s : list Z) : coded := into (Z.of_nat (List.length s) / 4 * 3) (rfc_decode s).

(* ---------------------------------------------------------------- http payloads, http/source/common.cpp *)
Local Open Scope string_scope.
(* common/buffer/type.h:85-95, xatmi/include/casual/xatmi/extended.h:13-20, casual/buffer/{field,string}.h: the names of the types *)
Definition t_x_octet := "X_OCTET/".
Definition t_binary := ".binary/".
Definition t_json := ".json/".
Definition t_xml := ".xml/".
Definition t_null := "NULL".
Definition t_field := "CFIELD/".
Definition t_string := "CSTRING/".
Definition p_x_octet := "application/casual-x-octet".
Definition p_binary := "application/casual-binary".
Definition p_json := "application/json".
Definition p_xml := "application/xml".
Definition p_field := "application/casual-field".
Definition p_string := "application/casual-string".
Definition p_null := "application/casual-null".
Definition generic_prefix := "application/casual-generic/".
(* protocol::convert::local::find, common.cpp:103-114 *)
Fixpoint find_in (m : list (string * string)) (k : string) : option string :=
  match m with [] => None | (a, b) :: r => if String.eqb a k then Some b else find_in r k end.
Definition from_mapping : list (string * string) :=
  [(t_x_octet, p_x_octet); (t_binary, p_binary); (t_json, p_json); (t_xml, p_xml); (t_field, p_field); (t_string, p_string); (t_null, p_null)].
Definition to_mapping : list (string * string) :=
  [(p_x_octet, t_x_octet); (p_binary, t_binary); (p_json, t_json); (p_xml, t_xml); (p_field, t_field); (p_string, t_string); (p_null, t_null)].
(* protocol::convert::from::buffer, common.cpp:133-155: from a buffer type to a content type *)
Definition content_of (t : string) : string :=
  match find_in from_mapping t with Some p => p | None => generic_prefix ++ t end.
(* protocol::convert::to::buffer, common.cpp:159-187. None: of an empty content type the part behind the prefix is taken, which isn't there *)
Definition type_of (c : string) : option string :=
  match find_in to_mapping c with
  | Some t => Some t
  | None => if String.prefix generic_prefix c then Some (substring (String.length generic_prefix) (String.length c - String.length generic_prefix) c)
            else if String.eqb c "" then None else Some ""
  end.
(* buffer::transcode::to::wire, common.cpp:250-283 *)
Definition to_wire (t : string) (d : list Z) : coded :=
  if String.eqb t t_json || String.eqb t t_xml then Coded d
  else if String.eqb t t_null then Coded []
  else base64_encode d.
(* buffer::transcode::from::wire, common.cpp:212-246: a zero byte is put last, and the text is decoded into its own memory *)
Definition from_wire (t : string) (d : list Z) : coded :=
  if String.eqb t t_json || String.eqb t t_xml then Coded d
  else if String.eqb t t_null then Coded []
  else into (Z.of_nat (List.length d) + 1) (rfc_decode (d ++ [0%Z])).
Local Close Scope string_scope.

(* ---------------------------------------------------------------- ids as text *)
(* the characters [a-f0-9] of the regular expressions *)
Definition is_hex (c : Z) : bool := ((97 <=? c) && (c <=? 102)) || ((48 <=? c) && (c <=? 57)).
Definition chars (s : string) : list Z := map (fun c => Z.of_nat (nat_of_ascii c)) (list_ascii_of_string s).
Definition nil_uuid : list Z := repeat 0 16.
(* operator << ( Uuid), uuid.cpp:83-88: a uuid of zero bytes is the text nil *)
Definition uuid_print (u : list Z) : list Z :=
  if forallb (Z.eqb 0) u then chars "nil" else hex_encode u.
(* operator >> ( Uuid), uuid.cpp:90-103. The text has no white space. None: invalid_argument is raised *)
Definition uuid_parse (s : list Z) : option (list Z) :=
  if (List.length s =? 32)%nat && forallb is_hex s then hex_decode s else None.

(* the result of reading a gtrid: Died, an assertion ends the process *)
Inductive parsed := Parsed (d : list Z) | Invalid | Died.
(* operator << ( global::ID), transaction/global.cpp:38-41 *)
Definition gtrid_print (g : list Z) : list Z := hex_encode g.
(* operator >> ( global::ID), transaction/global.cpp:43-61 *)
Definition gtrid_parse (s : list Z) : parsed :=
  if (List.length s =? 0)%nat || negb (forallb is_hex s) then Invalid
  else if Nat.odd (List.length s) then Invalid
  else if (64 <? List.length s)%nat then Died
  else match hex_decode s with Some d => Parsed d | None => Invalid end.

(* ---------------------------------------------------------------- XID *)
(* struct xid_t, xatmi/include/casual/xa.h:20-25 *)
Record xid := mk_xid { x_format : Z; x_gtrid : Z; x_bqual : Z; x_data : list Z }.
(* the object in memory; on the supported platforms there's no padding *)
Definition xid_memory (h : host) (x : xid) : list Z :=
  memory h 8 (to_word 8 (x_format x)) ++ memory h 8 (to_word 8 (x_gtrid x)) ++ memory h 8 (to_word 8 (x_bqual x)) ++ x_data x.
(* std::memcmp of the first n bytes *)
Fixpoint memcmp (n : nat) (a b : list Z) : comparison :=
  match n, a, b with
  | S k, x :: p, y :: q => if x <? y then Lt else if y <? x then Gt else memcmp k p q
  | _, _, _ => Eq
  end.
(* sizeof( XID) - ( XIDDATASIZE - ( gtrid_length + bqual_length)), transaction/id.cpp:26, 33 *)
Definition xid_size (x : xid) : nat := Z.to_nat (152 - (128 - (x_gtrid x + x_bqual x))).
(* operator == and operator <, transaction/id.cpp:22-34; Format::null is -1, transaction/id.h:54 *)
Definition xid_eq (h : host) (a b : xid) : bool :=
  if negb (x_format a =? x_format b) then false
  else if x_format a =? -1 then true
  else match memcmp (xid_size a) (xid_memory h a) (xid_memory h b) with Eq => true | _ => false end.
Definition xid_lt (h : host) (a b : xid) : bool :=
  if negb (x_format a =? x_format b) then x_format a <? x_format b
  else if x_format a =? -1 then false
  else match memcmp (xid_size a) (xid_memory h a) (xid_memory h b) with Lt => true | _ => false end.

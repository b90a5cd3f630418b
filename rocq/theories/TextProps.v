(* Binary and text: C34, C53, C54, C55. *)
From Coq Require Import ZArith List Bool String Lia.
From Verif Require Import Bytes BoModel TextModel TextSpec TextProofs TextXid.
Import ListNotations.
Local Open Scope Z_scope.

(* ================================================================ C34 *)
Theorem C34_hex d : Forall is_byte d -> hex_decode (hex_encode d) = Some d.
Proof. exact (hex_round_trip d). Qed.
(* and back: hexadecimal text that is decoded is the encoding of what was decoded *)
Theorem C34_hex_text s d : forallb is_hex s = true -> hex_decode s = Some d -> hex_encode d = s /\ Forall is_byte d.
Proof. exact (hex_back s d). Qed.
(* the target that is allocated is large enough, and nothing is lost *)
Theorem C34_base64 d : Forall is_byte d -> exists s, base64_encode d = Coded s /\ base64_decode s = Coded d.
Proof. exact (base64_round_trip d). Qed.
(* hexadecimal digits in upper case are decoded to something else, without an error *)
Theorem C34_hex_upper_case_refuted : exists s, hex_decode s = Some [17] /\ s = chars "AA".
Proof. exists (chars "AA"). vm_compute. auto. Qed.

(* ================================================================ C53 *)
(* a payload that is sent over http arrives as it was: of any type but NULL, that has no content *)
Theorem C53_payload t d : Forall is_byte d -> exists w, to_wire t d = Coded w /\ from_wire t w = Coded (if String.eqb t t_null then [] else d).
Proof. exact (wire_round_trip t d). Qed.
(* the content type identifies the buffer type, whatever type it is *)
Theorem C53_type t : type_of (content_of t) = Some t.
Proof. exact (content_round_trip t). Qed.
(* an empty content type from a client leads outside of the text *)
Theorem C53_empty_content_refuted : type_of "" = None.
Proof. reflexivity. Qed.

(* ================================================================ C54 *)
Theorem C54_uuid u : Forall is_byte u -> List.length u = 16%nat -> u <> nil_uuid -> uuid_parse (uuid_print u) = Some u.
Proof. exact (uuid_round_trip u). Qed.
(* a nil uuid is printed as a text that can't be read *)
Theorem C54_nil_refuted : uuid_parse (uuid_print nil_uuid) = None.
Proof. exact uuid_nil_text. Qed.
(* Missing: global ids of more than 32 bytes, see below *)
Theorem C54_gtrid_partial g : Forall is_byte g -> g <> [] -> (List.length g <= 32)%nat -> gtrid_parse (gtrid_print g) = Parsed g.
Proof. exact (gtrid_round_trip g). Qed.
Theorem C54_gtrid_text s g : gtrid_parse s = Parsed g -> gtrid_print g = s /\ Forall is_byte g.
Proof. exact (gtrid_parse_text s g). Qed.
(* the text of a longer global id, that is valid by the xa specification, ends the process that reads it *)
Theorem C54_long_gtrid_refuted g : Forall is_byte g -> (32 < List.length g <= 64)%nat -> gtrid_parse (gtrid_print g) = Died.
Proof. exact (gtrid_dies g). Qed.

(* ================================================================ C55 *)
(* XIDs are equal exactly when they identify the same branch *)
Theorem C55_equal h a b : valid_xid a -> valid_xid b -> (xid_eq h a b = true <-> same_branch a b).
Proof. exact (eq_same h a b). Qed.
(* and the order of XIDs is a strict order that is total on branches *)
Theorem C55_irreflexive h a : xid_lt h a a = false.
Proof. exact (lt_irrefl h a). Qed.
Theorem C55_transitive h a b c : valid_xid a -> valid_xid b -> valid_xid c -> xid_lt h a b = true -> xid_lt h b c = true -> xid_lt h a c = true.
Proof. exact (lt_trans h a b c). Qed.
Theorem C55_total h a b : valid_xid a -> valid_xid b -> same_branch a b /\ xid_lt h a b = false /\ xid_lt h b a = false \/ ~ same_branch a b /\ xid_lt h a b = negb (xid_lt h b a).
Proof. exact (lt_total h a b). Qed.

Example ex_hex : hex_encode [0; 171; 255] = chars "00abff" /\ hex_decode (chars "00abff") = Some [0; 171; 255]. Proof. vm_compute. auto. Qed.
Example ex_base64 : base64_encode (chars "casual") = Coded (chars "Y2FzdWFs") /\ base64_encode [255] = Coded (chars "/w==") /\ base64_decode (chars "/w==") = Coded [255]. Proof. vm_compute. auto. Qed.
Example ex_wire : to_wire "CFIELD/" [255; 0] = Coded (chars "/wA=") /\ from_wire "CFIELD/" (chars "/wA=") = Coded [255; 0] /\ content_of ".yaml/" = "application/casual-generic/.yaml/"%string. Proof. vm_compute. auto. Qed.
Definition ex_a := mk_xid 42 2 1 ([1; 2; 9] ++ repeat 7 125).
Definition ex_b := mk_xid 42 2 1 ([1; 2; 9] ++ repeat 8 125).
Definition ex_c := mk_xid 42 1 2 ([1; 2; 9] ++ repeat 8 125).
Lemma ex_valid : valid_xid ex_a /\ valid_xid ex_b /\ valid_xid ex_c.
Proof.
  assert (B : forall l, forallb (fun b => (0 <=? b) && (b <? 256)) l = true -> Forall is_byte l).
  { intros l H. rewrite forallb_forall in H. apply Forall_forall. intros b Hb. apply H in Hb. apply andb_prop in Hb. destruct Hb as [H1 H2]. apply Z.leb_le in H1. apply Z.ltb_lt in H2. split; lia. }
  unfold valid_xid, ex_a, ex_b, ex_c; cbn [x_format x_gtrid x_bqual x_data]. repeat split; try lia; try reflexivity; apply B; reflexivity.
Qed.
Example ex_xid : xid_eq Little ex_a ex_b = true /\ xid_eq Little ex_a ex_c = false /\ xid_lt Little ex_c ex_a = true /\ xid_lt Little ex_a ex_c = false. Proof. vm_compute. auto. Qed.
Print Assumptions C34_hex.
Print Assumptions C34_hex_text.
Print Assumptions C34_base64.
Print Assumptions C34_hex_upper_case_refuted.
Print Assumptions C53_payload.
Print Assumptions C53_type.
Print Assumptions C53_empty_content_refuted.
Print Assumptions C54_uuid.
Print Assumptions C54_nil_refuted.
Print Assumptions C54_gtrid_partial.
Print Assumptions C54_gtrid_text.
Print Assumptions C54_long_gtrid_refuted.
Print Assumptions C55_equal.
Print Assumptions C55_irreflexive.
Print Assumptions C55_transitive.
Print Assumptions C55_total.

(* C34, C53-C55: what binary to text conversions, http payloads and transaction ids should do. *)
From Coq Require Import ZArith List.
From Verif Require Import Bytes TextModel.
Import ListNotations.
Local Open Scope Z_scope.

(* an XID as the xa specification has it *)
Definition valid_xid (x : xid) : Prop :=
  - 2 ^ 63 <= x_format x < 2 ^ 63 /\ 0 <= x_gtrid x <= 64 /\ 0 <= x_bqual x <= 64 /\ length (x_data x) = 128%nat /\ Forall is_byte (x_data x).
Definition gtrid (x : xid) : list Z := firstn (Z.to_nat (x_gtrid x)) (x_data x).
Definition bqual (x : xid) : list Z := firstn (Z.to_nat (x_bqual x)) (skipn (Z.to_nat (x_gtrid x)) (x_data x)).
(* two XIDs identify the same branch: both are null, or they agree in format, global id and branch qualifier *)
Definition same_branch (a b : xid) : Prop :=
  x_format a = x_format b /\ (x_format a = -1 \/ (gtrid a = gtrid b /\ bqual a = bqual b)).

(* C32: an order buffer is a sequence of values that are read in the order they were added. *)
From Coq Require Import ZArith List.
From Verif Require Import Bytes BoModel BoSpec OrdModel.
Import ListNotations.
Local Open Scope Z_scope.

(* the values that can be added *)
Definition good (v : value) : Prop :=
  match v with
  | V_scalar t x => value_of t x
  | V_string s => Forall (fun c => is_byte c /\ c <> 0) s
  | V_binary size d => size = Z.of_nat (length d) /\ Forall is_byte d
  end.
Definition kind_of (v : value) : kind :=
  match v with V_scalar t _ => K_scalar t | V_string _ => K_string | V_binary _ _ => K_binary end.

(* the bytes a value takes, and a sequence of them: no object is larger than 2^63 - 1 bytes *)
Definition takes (v : value) : Z :=
  match v with V_scalar t _ => Z.of_nat (width t) | V_string s => Z.of_nat (length s) + 1 | V_binary size _ => 8 + size end.
Definition total (l : list value) : Z := fold_right (fun v n => takes v + n) 0 l.

(* the sequence: all values added, and how many of them have been read *)
Record sequence := mk_seq { added : list value; next : nat }.
(* what a client may do, what it is told, and what the sequence then is: values are read as what they were added as. To start over, the
   reading is reset before the writing. *)
Inductive does : sequence -> op -> result -> sequence -> Prop :=
| do_add q v f : good v -> total (added q ++ [v]) < 2 ^ 63 -> does q (Add v f) (Code SUCCESS None) (mk_seq (added q ++ [v]) (next q))
| do_get q v : nth_error (added q) (next q) = Some v -> does q (Get (kind_of v)) (Code SUCCESS (Some v)) (mk_seq (added q) (S (next q)))
| do_get_prepare q : does q Get_prepare (Code SUCCESS None) (mk_seq (added q) 0)
| do_add_prepare q : next q = 0%nat -> does q Add_prepare (Code SUCCESS None) (mk_seq [] 0).
Inductive history : list op -> list result -> sequence -> sequence -> Prop :=
| h_nil q : history [] [] q q
| h_cons o l x xs q q1 q2 : does q o x q1 -> history l xs q1 q2 -> history (o :: l) (x :: xs) q q2.

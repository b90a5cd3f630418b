(* C31: values of the scalar types, and the big-endian representation. *)
From Coq Require Import ZArith List.
From Verif Require Import BoModel.
Local Open Scope Z_scope.

(* the values of a type; a float or double is its bit pattern *)
Definition value_of (t : scalar) (v : Z) : Prop :=
  match t with
  | T_bool => v = 0 \/ v = 1
  | T_uchar => 0 <= v < 256
  | T_char => -128 <= v < 128
  | T_short => - 2 ^ 15 <= v < 2 ^ 15
  | T_int => - 2 ^ 31 <= v < 2 ^ 31
  | T_float => 0 <= v < 2 ^ 32
  | T_double | T_usize => 0 <= v < 2 ^ 64
  | T_long | T_longlong | T_size => - 2 ^ 63 <= v < 2 ^ 63
  end.
(* n bytes, the most significant first; a negative number in two's complement *)
Definition big_endian (n : nat) (v : Z) (l : list Z) : Prop :=
  length l = n /\ forall i, (i < n)%nat -> nth i l 0 = (v mod 2 ^ (8 * Z.of_nat n)) / 2 ^ (8 * Z.of_nat (n - 1 - i)) mod 256.

(* C35: the values of a type. *)
From Coq Require Import ZArith List Bool Sorted.
From Verif Require Import Bytes BoModel BoSpec ArcModel.
Import ListNotations.
Local Open Scope Z_scope.

Definition sizes (n : nat) : Prop := Z.of_nat n < 2 ^ 63.
Fixpoint typed (t : ty) (v : val) : Prop :=
  match t, v with
  | T_num s, V_num x => value_of s x
  | T_bytes, V_bytes l => sizes (length l) /\ Forall is_byte l
  | T_fixed n, V_bytes l => length l = n /\ Forall is_byte l
  | T_duration u, V_num x => 0 < u /\ - 2 ^ 63 <= x * u < 2 ^ 63     (* within 292 years *)
  | T_optional _, V_none => True
  | T_optional t, V_some v => typed t v
  | T_sequence t, V_list l => sizes (length l) /\ Forall (typed t) l
  (* in the order of the container; no two that are equal if there is only room for one of them *)
  | T_insert multi lt t, V_list l => sizes (length l) /\ Forall (typed t) l /\
      StronglySorted (fun x y => lt y x = false /\ (multi = false -> lt x y = true)) l
  | T_unit, V_unit => True
  | T_pair a b, V_pair v w => typed a v /\ typed b w
  | T_tuple n t, v => sizes n /\ typed t v
  | T_xid, V_xid f g b d => value_of T_long f /\
      if f =? -1 then g = 0 /\ b = 0 /\ d = [] else 0 <= g /\ 0 <= b /\ g + b <= 128 /\ Z.of_nat (length d) = g + b /\ Forall is_byte d
  | _, _ => False
  end.
(* what is written by one can be read by the other: the network archives on any hosts, the native archive on the same one *)
Definition compatible (p p' : policy) : Prop :=
  match p, p' with
  | Native h, Native h' => h = h'
  | Network _, Network _ => True
  | _, _ => False
  end.
(* types without optionals and containers with insert: an object of them can be read to again *)
Fixpoint overwritten (t : ty) : bool :=
  match t with
  | T_optional _ | T_insert _ _ _ => false
  | T_sequence t | T_tuple _ t => overwritten t
  | T_pair a b => overwritten a && overwritten b
  | _ => true
  end.
(* a strict weak order *)
Definition strict_weak (P : val -> Prop) (lt : val -> val -> bool) : Prop :=
  (forall x y, P x -> P y -> lt x y = true -> lt y x = false) /\
  (forall x y z, P x -> P y -> P z -> lt x y = true -> lt y z = true -> lt x z = true) /\
  (forall x y z, P x -> P y -> P z -> lt z y = false -> lt y x = false -> lt z x = false).
(* types of which everything that can be read is a value: containers have a proper order, and there's no XID *)
Fixpoint regular (t : ty) : Prop :=
  match t with
  | T_xid => False
  | T_duration u => 0 < u
  | T_insert _ lt t => regular t /\ strict_weak (typed t) lt
  | T_tuple n t => sizes n /\ regular t
  | T_optional t | T_sequence t => regular t
  | T_pair a b => regular a /\ regular b
  | _ => True
  end.

(* C33: a field buffer is a list of fields, (id, value) pairs; an occurrence of an id is counted among the fields with that id. *)
From Coq Require Import ZArith List Bool.
From Verif Require Import Bytes BoModel BoSpec FieldModel.
Import ListNotations.
Local Open Scope Z_scope.

Definition field := (Z * value)%type.
(* the values that can be stored: the numbers of the type, strings without zero bytes, any bytes; less than what can be addressed *)
Definition good (v : value) : Prop :=
  match v with
  | V_number k x => exists t, scalar_of k = Some t /\ value_of t x
  | V_string s => Forall (fun c => is_byte c /\ c <> 0) s /\ Z.of_nat (length s) < 2 ^ 62
  | V_binary d => Forall is_byte d /\ Z.of_nat (length d) < 2 ^ 62
  end.
Definition is_of (id : Z) (v : value) : bool := number (kind_of v) =? type_of id.
(* the values of an id, in order, and one of them *)
Definition values (id : Z) (l : list field) : list value := map snd (filter (fun f => fst f =? id) l).
Definition occurrences (id : Z) (l : list field) : Z := Z.of_nat (length (values id l)).
Definition value_at (id i : Z) (l : list field) : option value := if i <? 0 then None else nth_error (values id l) (Z.to_nat i).
(* occurrence n of an id is replaced or removed: the other fields are as they were *)
Fixpoint replaced (id : Z) (n : nat) (v : value) (l : list field) : list field :=
  match l with
  | [] => []
  | f :: r => if fst f =? id then match n with O => (id, v) :: r | S k => f :: replaced id k v r end else f :: replaced id n v r
  end.
Fixpoint removed (id : Z) (n : nat) (l : list field) : list field :=
  match l with
  | [] => []
  | f :: r => if fst f =? id then match n with O => r | S k => f :: removed id k r end else f :: removed id n r
  end.
(* the smallest id after another one *)
Definition least (l : list Z) : option Z := fold_right (fun x m => match m with None => Some x | Some y => Some (Z.min x y) end) None l.
Definition first_id (l : list field) : option Z := least (map fst l).
Definition next_id (id : Z) (l : list field) : option Z := least (filter (fun x => id <? x) (map fst l)).
(* the length of a stored value *)
Definition size_of (v : value) : Z :=
  match v with
  | V_number k _ => match scalar_of k with Some t => Z.of_nat (width t) | None => 0 end
  | V_string s => Z.of_nat (length s) + 1
  | V_binary d => Z.of_nat (length d)
  end.
(* as plain memory: a string with its terminator *)
Definition plain (v : value) : value := match v with V_string s => V_binary (s ++ [0]) | _ => v end.

(* what a client is told, and what the fields are then *)
Definition s_add (id : Z) (v : value) (l : list field) : list field * result := (l ++ [(id, v)], Code SUCCESS Nothing).
Definition s_set (id i : Z) (v : value) (l : list field) : list field * result :=
  match value_at id i l with None => (l, Code OUT_OF_BOUNDS Nothing) | Some _ => (replaced id (Z.to_nat i) v l, Code SUCCESS Nothing) end.
(* a value is put at an occurrence: empty fields are added before it if there aren't enough of them *)
Definition s_put (id i : Z) (v : value) (l : list field) : list field * result :=
  if i <? 0 then s_add id v l
  else if i <? occurrences id l then s_set id i v l
  else (l ++ repeat (id, empty_of (kind_of v)) (Z.to_nat (i - occurrences id l)) ++ [(id, v)], Code SUCCESS Nothing).
Definition s_remove (id i : Z) (l : list field) : list field * result :=
  match value_at id i l with None => (l, Code OUT_OF_BOUNDS Nothing) | Some _ => (removed id (Z.to_nat i) l, Code SUCCESS Nothing) end.
Definition s_get (id i : Z) (l : list field) : result := match value_at id i l with None => Code OUT_OF_BOUNDS Nothing | Some v => Code SUCCESS (Value v) end.
Definition s_next (id i : Z) (l : list field) : result :=
  if id =? 0 then match first_id l with None => Code OUT_OF_BOUNDS (Place id i) | Some j => Code SUCCESS (Place j 0) end
  else if occurrences id l =? 0 then Code INVALID_ARGUMENT (Place id i)
  else if i + 1 <? occurrences id l then Code SUCCESS (Place id (i + 1))
  else match next_id id l with None => Code OUT_OF_BOUNDS (Place id (i + 1)) | Some j => Code SUCCESS (Place j 0) end.
(* the generic getter: room for n bytes is needed, if n is given *)
Definition fits (n : option Z) (size : Z) : bool := match n with None => true | Some c => size <=? c end.
Definition s_get_value (id i : Z) (n : option Z) (l : list field) : result :=
  match kind_of_number (type_of id) with
  | None => Code INVALID_ARGUMENT (Sized None n)
  | Some k =>
      match scalar_of k with
      | Some t => let size := Z.of_nat (width t) in
                  if negb (fits n size) then Code INVALID_ARGUMENT (Sized None n)
                  else match value_at id i l with
                       | None => Code OUT_OF_BOUNDS (Sized None (option_map (fun _ => size) n))
                       | Some v => Code SUCCESS (Sized (Some v) (option_map (fun _ => size) n))
                       end
      | None => match value_at id i l with
                | None => Code OUT_OF_BOUNDS (Sized None n)
                | Some v => if fits n (size_of v) then Code SUCCESS (Sized (Some (plain v)) (option_map (fun _ => size_of v) n)) else Code INVALID_ARGUMENT (Sized None n)
                end
      end
  end.
Definition s_explore (id i : Z) (l : list field) : result :=
  match kind_of_number (type_of id) with
  | None => Code INVALID_ARGUMENT Nothing
  | Some k => match value_at id i l with
              | None => Code OUT_OF_BOUNDS (match scalar_of k with Some t => Number (Z.of_nat (width t)) | None => Nothing end)
              | Some v => Code SUCCESS (Number (size_of v))
              end
  end.

(* the buffers of a process, by handle *)
Definition s_on (k : nat) (s : list (list field)) (f : list field -> list field * result) : list (list field) * result :=
  match nth_error s k with
  | None => (s, Code INVALID_HANDLE Nothing)
  | Some l => let (l', r) := f l in (firstn k s ++ l' :: skipn (S k) s, r)
  end.
Definition s_on_get (k : nat) (s : list (list field)) (f : list field -> result) : list (list field) * result :=
  match nth_error s k with
  | None => (s, match f [] with Code c o => Code (if c =? OUT_OF_BOUNDS then INVALID_HANDLE else c) o | r => r end)
  | Some l => (s, f l)
  end.
Definition s_checked (bad : bool) (x : list (list field) * result) (s : list (list field)) : list (list field) * result :=
  if bad then (s, Code INVALID_ARGUMENT Nothing) else x.
Definition s_step (o : op) (s : list (list field)) : list (list field) * result :=
  match o with
  | Allocate => (s ++ [[]], Code SUCCESS Nothing)
  | Add k id v => s_checked (negb (is_of id v)) (s_on k s (s_add id v)) s
  | Add_empty k id => match kind_of_number (type_of id) with None => (s, Code INVALID_ARGUMENT Nothing) | Some t => s_on k s (s_add id (empty_of t)) end
  | Get k id i t => s_checked (negb (number t =? type_of id)) (s_on k s (fun l => (l, s_get id i l))) s
  | Get_value k id i n => s_on_get k s (s_get_value id i n)
  | Explore_value k id i => s_on_get k s (s_explore id i)
  | Set_ k id i v => s_checked (negb (is_of id v)) (s_on k s (s_set id i v)) s
  | Put_value k id i v => s_checked (negb (is_of id v)) (s_on k s (s_put id i v)) s
  | Remove k id i => s_checked (id <=? 0) (s_on k s (s_remove id i)) s
  | Remove_id k id => s_on k s (fun l => (filter (fun f => negb (fst f =? id)) l, Code SUCCESS Nothing))
  | Remove_all k => s_on k s (fun _ => ([], Code SUCCESS Nothing))
  | Count k id => s_checked (id =? 0) (s_on k s (fun l => (l, Code SUCCESS (Number (occurrences id l))))) s
  | Count_all k => s_on k s (fun l => (l, Code SUCCESS (Number (Z.of_nat (length l)))))
  | Next k id i => s_on k s (fun l => (l, s_next id i l))
  | Copy k from | Copy_memory k from => match nth_error s from with None => (s, Code INVALID_HANDLE Nothing) | Some x => s_on k s (fun _ => (x, Code SUCCESS Nothing)) end
  | Move k => s_on k s (fun l => (l, Code SUCCESS Nothing))
  end.
Fixpoint s_run (l : list (host * op)) (s : list (list field)) : list (list field) * list result :=
  match l with
  | [] => (s, [])
  | (_, o) :: r => let (s1, x) := s_step o s in let (s2, xs) := s_run r s1 in (s2, x :: xs)
  end.
(* the values given to the operations *)
Definition values_of (o : op) : list value :=
  match o with Add _ _ v | Set_ _ _ _ v | Put_value _ _ _ v => [v] | _ => [] end.
Definition good_op (o : op) : Prop := Forall good (values_of o).

(* to go through all fields: from no id, until there are no more *)
Fixpoint walk (fuel : nat) (b : buffer) (id i : Z) : option (list (Z * Z)) :=
  match fuel with
  | O => None
  | S f => match next id i b with
           | Code c (Place id' i') => if c =? SUCCESS then match walk f b id' i' with Some r => Some ((id', i') :: r) | None => None end
                                      else if c =? OUT_OF_BOUNDS then Some [] else None
           | _ => None
           end
  end.
(* the buffers of a process after some operations, every one on any host *)
Definition reachable (s : list buffer) : Prop := exists l, Forall (fun x => good_op (snd x)) l /\ s = fst (run l []).
